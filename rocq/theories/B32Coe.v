(** * B32Coe: rounding errors of coe2rv in single precision (proofs for C80) *)
From Coq Require Import ZArith Reals Lra Lia Psatz Bool List.
From Flocq Require Import Core IEEE754.BinarySingleNaN.
From Verif Require Import Num NumB32 Spec SpecFl SpecFl32 SpecFlV RelLib RoundAn B32Lib B32Acc B32Rel B32An B32Geo.
From Verif Require Import OrbIntegrals RotMat OrbElements.
Import ListNotations.
Local Open Scope R_scope.

Section Coe.
  Variable L : libm.
  Let N : Num b32 := Num_B32 L.

  Lemma An_dot3 (a b : Z) (j k : nat) (m0 m1 m2 n0 n1 n2 : R) (x0 x1 x2 y0 y1 y2 : b32) (v0 v1 v2 w0 w1 w2 : R) :
    Er32 a j m0 x0 v0 -> Er32 a j m1 x1 v1 -> Er32 a j m2 x2 v2 -> Er32 b k n0 y0 w0 -> Er32 b k n1 y1 w1 -> Er32 b k n2 y2 w2 ->
    (a + b + 2 <= 109)%Z -> (j + k <= 100)%nat ->
    Er32 (a + b + 2) (j + k + 3) (m0 * n0 + m1 * n1 + m2 * n2)
      (@n_add _ N (@n_add _ N (@n_mul _ N x0 y0) (@n_mul _ N x1 y1)) (@n_mul _ N x2 y2)) (v0 * w0 + v1 * w1 + v2 * w2).
  Proof using All.
    intros X Y Z X' Y' Z' H K.
    pose proof (An_mul L _ _ _ _ _ _ _ _ _ _ X X' ltac:(lia) ltac:(lia)) as A1.
    pose proof (An_mul L _ _ _ _ _ _ _ _ _ _ Y Y' ltac:(lia) ltac:(lia)) as A2.
    pose proof (An_mul L _ _ _ _ _ _ _ _ _ _ Z Z' ltac:(lia) ltac:(lia)) as A3.
    pose proof (An_add L _ _ _ _ _ _ _ _ _ _ A1 A2 ltac:(lia) ltac:(lia)) as C.
    pose proof (An_add L _ _ _ _ _ _ _ _ _ _ C A3 ltac:(lia) ltac:(lia)) as D.
    replace (Z.max (Z.max (a + b) (a + b) + 1) (a + b) + 1)%Z with (a + b + 2)%Z in D by lia.
    replace (S (Nat.max (S (Nat.max (S (j + k)) (S (j + k)))) (S (j + k)))) with (j + k + 3)%nat in D by lia. exact D.
  Qed.
  Definition An_dot3_eq (m : R) (a b : Z) (j k : nat) (m0 m1 m2 n0 n1 n2 : R) (x0 x1 x2 y0 y1 y2 : b32) (v0 v1 v2 w0 w1 w2 : R)
    X0 X1 X2 Y0 Y1 Y2 H K (r : Z) (E : m0 * n0 + m1 * n1 + m2 * n2 = m) (I : in_range r m) (R0 : (0 <= r)%Z) :
    Er32 r (j + k + 3) m (@n_add _ N (@n_add _ N (@n_mul _ N x0 y0) (@n_mul _ N x1 y1)) (@n_mul _ N x2 y2)) (v0 * w0 + v1 * w1 + v2 * w2) :=
    An_weak L _ r _ (j + k + 3) _ m _ _ (An_dot3 a b j k m0 m1 m2 n0 n1 n2 x0 x1 x2 y0 y1 y2 v0 v1 v2 w0 w1 w2 X0 X1 X2 Y0 Y1 Y2 H K)
      (Req_le _ _ E) (le_n _) I R0.

  Variables (p e incl raan argp f mu : b32) (c : nat).
  Hypotheses (Gp : good32 17 p) (Pp : 0 < B2R p) (Gm : good32 20 mu) (Pm : 0 < B2R mu) (Ge : good32 100 e) (Be : 0 <= B2R e <= 1000).
  Hypothesis Hc : (c <= 8)%nat.
  Hypothesis trig : forall x, In x [incl; raan; argp; f] ->
    (is_finite (m_sin L x) = true /\ Rabs (B2R (m_sin L x) - sin (B2R x)) <= INR c * / IZR (2 ^ 24)) /\
    (is_finite (m_cos L x) = true /\ Rabs (B2R (m_cos L x) - cos (B2R x)) <= INR c * / IZR (2 ^ 24)).
  Let w : R := 1 + B2R e * cos (B2R f).
  Hypothesis Hw : 1 + B2R e <= 1000 * w.

  Lemma s_ok (x : b32) : In x [incl; raan; argp; f] -> Er32 0 c 1 (@n_sin _ N x) (sin (B2R x)).
  Proof using All.
    intro H. destruct (trig x H) as [[F E] _]. apply (An_lib L); [exact F | exact E |]. pose proof (SIN_bound (B2R x)). apply Rabs_le. lra.
  Qed.
  Lemma c_ok (x : b32) : In x [incl; raan; argp; f] -> Er32 0 c 1 (@n_cos _ N x) (cos (B2R x)).
  Proof using All.
    intro H. destruct (trig x H) as [_ [F E]]. apply (An_lib L); [exact F | exact E |]. pose proof (COS_bound (B2R x)). apply Rabs_le. lra.
  Qed.
  Lemma ms_ok (x : b32) : In x [incl; raan; argp; f] -> Er32 0 c 1 (@n_neg _ N (@n_sin _ N x)) (- sin (B2R x)).
  Proof using All. intro H. apply (An_neg L). apply s_ok. exact H. Qed.
  Lemma z_ok : Er32 0 c 0 (@n_Z _ N 0) 0.
  Proof using All.
    pose proof (An_Z L 0 0 ltac:(lia) ltac:(lia) ltac:(lia)) as O. rewrite Rabs_R0 in O. apply (An_k L _ 0 c _ _ _ O). lia.
  Qed.
  Lemma o_ok : Er32 0 c 1 (@n_Z _ N 1) 1.
  Proof using All.
    pose proof (An_Z L 0 1 ltac:(lia) ltac:(lia) ltac:(lia)) as O. rewrite Rabs_R1 in O. apply (An_k L _ 0 c _ _ _ O). lia.
  Qed.
  Let iI : In incl [incl; raan; argp; f]. Proof using. simpl; tauto. Qed.
  Let iR : In raan [incl; raan; argp; f]. Proof using. simpl; tauto. Qed.
  Let iW : In argp [incl; raan; argp; f]. Proof using. simpl; tauto. Qed.
  Let iF : In f [incl; raan; argp; f]. Proof using. simpl; tauto. Qed.

  Definition row3 (k : nat) (m0 m1 m2 : R) (g : V3 b32) (v : vec) : Prop :=
    Er32 1 k m0 (c0 g) (c0 v) /\ Er32 1 k m1 (c1 g) (c1 v) /\ Er32 1 k m2 (c2 g) (c2 v).
  Let rI : in_range 1 1. Proof using. apply range_between; [simpl; lra | lia]. Qed.
  Let rII : in_range 1 2. Proof using. apply range_between; [simpl; lra | lia]. Qed.
  Let rO : in_range 1 0. Proof using. left. reflexivity. Qed.

  Let Om := B2R raan.
  Let In' := B2R incl.
  Let Pe := B2R argp.
  Definition PQ : M3 R := (* rows of Rz Rx *)
    mk3 (mk3 (cos Om) (- (sin Om * cos In')) (sin Om * sin In'))
        (mk3 (sin Om) (cos Om * cos In') (- (cos Om * sin In')))
        (mk3 0 (sin In') (cos In')).
  Ltac ent m := eapply (An_v L); [eapply (An_dot3_eq m 0 0); [eassumption | eassumption | eassumption | eassumption | eassumption | eassumption | lia | lia | ring | assumption | lia] | reflexivity | unfold PQ, Om, In'; cbn [c0 c1 c2]; ring].
  Lemma first_ok : let A := @mmul _ N (@rotmat3dz _ N raan) (@rotmat3dx _ N incl) in
    row3 (c + c + 3) 1 1 1 (c0 A) (c0 PQ) /\ row3 (c + c + 3) 1 1 1 (c1 A) (c1 PQ) /\ row3 (c + c + 3) 0 1 1 (c2 A) (c2 PQ).
  Proof using All.
    intro A.
    pose proof (c_ok _ iR) as CR. pose proof (s_ok _ iR) as SR. pose proof (ms_ok _ iR) as MR.
    pose proof (c_ok _ iI) as CI. pose proof (s_ok _ iI) as SI. pose proof (ms_ok _ iI) as MI.
    pose proof z_ok as ZZ. pose proof o_ok as OO.
    split; [| split]; (split; [| split]); unfold A, mmul, rotmat3dz, rotmat3dx, mcol, vinner; cbn [vmap3 c0 c1 c2].
    all: first [ent 1 | ent 0].
  Qed.

  Definition RM : M3 R := (* Rz Rx Rz *)
    mk3 (mk3 (c0 (c0 PQ) * cos Pe + c1 (c0 PQ) * sin Pe) (c1 (c0 PQ) * cos Pe - c0 (c0 PQ) * sin Pe) (c2 (c0 PQ)))
        (mk3 (c0 (c1 PQ) * cos Pe + c1 (c1 PQ) * sin Pe) (c1 (c1 PQ) * cos Pe - c0 (c1 PQ) * sin Pe) (c2 (c1 PQ)))
        (mk3 (c0 (c2 PQ) * cos Pe + c1 (c2 PQ) * sin Pe) (c1 (c2 PQ) * cos Pe - c0 (c2 PQ) * sin Pe) (c2 (c2 PQ))).
  Ltac ent2 m := eapply (An_v L); [eapply (An_dot3_eq m 1 0); [eassumption | eassumption | eassumption | eassumption | eassumption | eassumption | lia | lia | ring | assumption | lia] | reflexivity | unfold RM, Pe; cbn [c0 c1 c2]; ring].
  Lemma second_ok : let A := @mmul _ N (@mmul _ N (@rotmat3dz _ N raan) (@rotmat3dx _ N incl)) (@rotmat3dz _ N argp) in
    row3 (c + c + 3 + c + 3) 2 2 1 (c0 A) (c0 RM) /\ row3 (c + c + 3 + c + 3) 2 2 1 (c1 A) (c1 RM) /\ row3 (c + c + 3 + c + 3) 1 1 1 (c2 A) (c2 RM).
  Proof using All.
    destruct first_ok as [[X0 [X1 X2]] [[Y0 [Y1 Y2]] [Z0 [Z1 Z2]]]].
    set (B := @mmul _ N (@rotmat3dz _ N raan) (@rotmat3dx _ N incl)) in *. clearbody B. intro A.
    pose proof (c_ok _ iW) as CW. pose proof (s_ok _ iW) as SW. pose proof (ms_ok _ iW) as MW.
    pose proof z_ok as ZZ. pose proof o_ok as OO.
    split; [| split]; (split; [| split]); unfold A, mmul, rotmat3dz, mcol, vinner; cbn [vmap3 c0 c1 c2].
    all: first [ent2 1 | ent2 2].
  Qed.

  (** the perifocal vectors *)
  Let P : R := B2R p * (1 + B2R e) / w ^ 2.
  Let V : R := sqrt (B2R mu / B2R p).
  Lemma w_pos : 0 < w /\ w <= 1 + B2R e.
  Proof using All.
    split; [lra |]. unfold w. pose proof (COS_bound (B2R f)). assert (B2R e * cos (B2R f) <= B2R e * 1) by (apply Rmult_le_compat_l; lra). lra.
  Qed.
  Lemma p_ok' : Er32 17 0 (B2R p) p (B2R p).
  Proof using All. pose proof (An_good L 17 p ltac:(lia) Gp) as E. rewrite Rabs_pos_eq in E by lra. exact E. Qed.
  Lemma m_ok' : Er32 20 0 (B2R mu) mu (B2R mu).
  Proof using All. pose proof (An_good L 20 mu ltac:(lia) Gm) as E. rewrite Rabs_pos_eq in E by lra. exact E. Qed.
  Lemma e_ok2 : Er32 100 0 (B2R e) e (B2R e).
  Proof using All. pose proof (An_good L 100 e ltac:(lia) Ge) as E. rewrite Rabs_pos_eq in E by lra. exact E. Qed.
  Lemma range_1e : in_range 10 (1 + B2R e).
  Proof using All. apply range_between; [simpl; lra | lia]. Qed.
  Lemma w_ok : Er32 10 (c + 2) (1 + B2R e) (@n_add _ N (@n_Z _ N 1) (@n_mul _ N e (@n_cos _ N f))) w.
  Proof using All.
    pose proof (An_mul L _ _ _ _ _ _ _ _ _ _ e_ok2 (c_ok _ iF) ltac:(lia) ltac:(lia)) as E1.
    pose proof (An_Z L 0 1 ltac:(lia) ltac:(lia) ltac:(lia)) as O. rewrite Rabs_R1 in O.
    pose proof (An_add L _ _ _ _ _ _ _ _ _ _ O E1 ltac:(lia) ltac:(lia)) as D.
    apply (An_weak L _ 10 _ (c + 2) _ (1 + B2R e) _ _ D); [lra | lia | exact range_1e | lia].
  Qed.
  Lemma P_range : in_range 37 P.
  Proof using All.
    destruct w_pos as [W0 W1]. unfold P. replace (B2R p * (1 + B2R e) / w ^ 2) with (B2R p * ((1 + B2R e) / w ^ 2)) by (field; lra).
    apply (range_mul 17 20); [lia | lia | apply Gp |]. apply range_between; [| lia].
    assert (W2 : 0 < w ^ 2) by (apply pow_lt; exact W0). split.
    - apply Rmult_le_reg_r with (w ^ 2); [exact W2 |]. unfold Rdiv. rewrite Rmult_assoc, Rinv_l, Rmult_1_r by lra.
      assert (w ^ 2 <= 1001 * (1 + B2R e)) by (simpl; rewrite Rmult_1_r; apply Rmult_le_compat; lra). simpl. lra.
    - apply Rmult_le_reg_r with (w ^ 2); [exact W2 |]. unfold Rdiv. rewrite Rmult_assoc, Rinv_l, Rmult_1_r by lra.
      assert ((1 + B2R e) * 1 <= (1 + B2R e) * (1 + B2R e)) by (apply Rmult_le_compat_l; lra).
      assert ((1 + B2R e) * (1 + B2R e) <= (1000 * w) * (1000 * w)) by (apply Rmult_le_compat; lra). simpl. lra.
  Qed.
  Lemma rho_ok : Er32 37 (c + 4) P (@n_div _ N p (@n_add _ N (@n_Z _ N 1) (@n_mul _ N e (@n_cos _ N f)))) (B2R p / w).
  Proof using All.
    destruct w_pos as [W0 W1].
    assert (G : gam u32 (c + 2) * (1 + B2R e) <= Rabs w / 100).
    { rewrite Rabs_pos_eq by lra. assert (gam u32 (c + 2) <= gam u32 14).
      { unfold gam. pose proof (Rle_pow (1 + u32) (c + 2) 14 ltac:(unfold u32, eps; lra) ltac:(lia)). lra. }
      pose proof gam14. assert (gam u32 (c + 2) * (1 + B2R e) <= / 10 ^ 6 * (1 + B2R e)) by (apply Rmult_le_compat_r; lra). simpl in *. lra. }
    pose proof (An_div L 17 10 37 0 (c + 2) _ _ _ _ _ _ p_ok' w_ok ltac:(lra) G P_range ltac:(lia) ltac:(lia)) as D.
    apply (An_k L _ _ (c + 4) _ _ _ D). lia.
  Qed.
  Lemma rpf_ok : let x := @n_div _ N p (@n_add _ N (@n_Z _ N 1) (@n_mul _ N e (@n_cos _ N f))) in
    Er32 37 (c + 4 + c + 1) P (@n_mul _ N x (@n_cos _ N f)) (B2R p / w * cos (B2R f)) /\
    Er32 37 (c + 4 + c + 1) P (@n_mul _ N x (@n_sin _ N f)) (B2R p / w * sin (B2R f)) /\
    Er32 37 (c + 4 + c + 1) 0 (@n_mul _ N x (@n_Z _ N 0)) 0.
  Proof using All.
    intro x. pose proof rho_ok as X. fold x in X. clearbody x.
    pose proof (An_mul L _ _ _ _ _ _ _ _ _ _ X (c_ok _ iF) ltac:(lia) ltac:(lia)) as A.
    pose proof (An_mul L _ _ _ _ _ _ _ _ _ _ X (s_ok _ iF) ltac:(lia) ltac:(lia)) as B.
    pose proof (An_mul L _ _ _ _ _ _ _ _ _ _ X z_ok ltac:(lia) ltac:(lia)) as D. rewrite Rmult_1_r in A, B. rewrite !Rmult_0_r in D.
    replace (37 + 0)%Z with 37%Z in * by lia.
    split; [| split]; [apply (An_k L _ _ _ _ _ _ A) | apply (An_k L _ _ _ _ _ _ B) | apply (An_k L _ _ _ _ _ _ D)]; lia.
  Qed.
  Lemma vpf_ok : let x := @n_sqrt _ N (@n_div _ N mu p) in
    Er32 29 (c + 5) (V * (1 + B2R e)) (@n_mul _ N x (@n_neg _ N (@n_sin _ N f))) (V * - sin (B2R f)) /\
    Er32 29 (c + 5) (V * (1 + B2R e)) (@n_mul _ N x (@n_add _ N e (@n_cos _ N f))) (V * (B2R e + cos (B2R f))) /\
    Er32 29 (c + 5) 0 (@n_mul _ N x (@n_Z _ N 0)) 0.
  Proof using All.
    intro x.
    assert (P2 : Er32 17 0 (Rabs (B2R p)) p (B2R p)) by (rewrite Rabs_pos_eq by lra; exact p_ok').
    pose proof (An_div1 L _ _ _ _ _ _ _ _ _ m_ok' P2 ltac:(lra) ltac:(lia) ltac:(lia)) as D. rewrite (Rabs_pos_eq (B2R p)) in D by lra.
    assert (Pq : 0 < B2R mu / B2R p) by (apply Rdiv_lt_0_compat; assumption).
    pose proof (An_weak L _ (19 + 19) _ 2 _ _ _ _ D (Rle_refl _) ltac:(lia) ltac:(apply (range_mono (20 + 17)); [lia | apply D]) ltac:(lia)) as D2.
    pose proof (An_sqrt L 19 2 _ _ D2 Pq ltac:(lia) ltac:(lia)) as X.
    change (@n_sqrt b32 (Num_B32 L) (@n_div b32 (Num_B32 L) mu p)) with x in X. fold V in X. clearbody x. simpl in X.
    pose proof (An_m L _ _ _ _ _ X) as V0.
    pose proof (An_mul L _ _ _ _ _ _ _ _ _ _ X (ms_ok _ iF) ltac:(lia) ltac:(lia)) as A.
    pose proof (An_add L _ _ _ _ _ _ _ _ _ _ e_ok2 (c_ok _ iF) ltac:(lia) ltac:(lia)) as E1.
    pose proof (An_weak L _ 10 _ (c + 1) _ (1 + B2R e) _ _ E1 ltac:(lra) ltac:(lia) range_1e ltac:(lia)) as E2.
    pose proof (An_mul L _ _ _ _ _ _ _ _ _ _ X E2 ltac:(lia) ltac:(lia)) as B.
    pose proof (An_mul L _ _ _ _ _ _ _ _ _ _ X z_ok ltac:(lia) ltac:(lia)) as Z. rewrite !Rmult_0_r in Z.
    split; [| split].
    - apply (An_weak L _ 29 _ (c + 5) _ (V * (1 + B2R e)) _ _ A); [apply Rmult_le_compat_l; lra | lia | apply B | lia].
    - apply (An_weak L _ 29 _ (c + 5) _ _ _ _ B); [lra | lia | apply B | lia].
    - apply (An_weak L _ 29 _ (c + 5) _ _ _ _ Z); [lra | lia | left; reflexivity | lia].
  Qed.

  Lemma apply_row (a : Z) (j k : nat) (m0 m1 m2 M : R) (g : V3 b32) (v : vec) (x y z : b32) (s t : R) :
    row3 j m0 m1 m2 g v -> m0 <= 2 -> m1 <= 2 -> Er32 a k M x s -> Er32 a k M y t -> Er32 a k 0 z 0 -> (a + 3 <= 109)%Z -> (j + k + 4 <= 90)%nat ->
    off (4 * (INR (j + k + 3) + 1)) M (@vinner _ N g (mk3 x y z)) (c0 v * s + c1 v * t).
  Proof using All.
    intros [X [Y Z]] M0 M1 A B D H K. pose proof (An_m L _ _ _ _ _ A) as MM.
    pose proof (An_dot3 1 a j k _ _ _ _ _ _ _ _ _ _ _ _ _ _ _ _ _ _ X Y Z A B D ltac:(lia) ltac:(lia)) as E.
    pose proof (An_final L (INR (j + k + 3) + 1) _ _ _ (4 * M) _ _ (c0 v * s + c1 v * t) E ltac:(lia) ltac:(lra)) as Q.
    destruct Q as [Q1 Q2].
    - rewrite Rmult_0_r, Rplus_0_r. assert (m0 * M <= 2 * M) by (apply Rmult_le_compat_r; lra). assert (m1 * M <= 2 * M) by (apply Rmult_le_compat_r; lra). lra.
    - ring.
    - split; [exact Q1 |]. apply Rle_trans with (1 := Q2). lra.
  Qed.
  Lemma coe_ok : let N := Num_B32 L in
    off32v (20 * INR c + 60) P (fst (@coe2rv _ N p e incl raan argp f mu)) (elements_position (B2R p) (B2R e) In' Om Pe (B2R f)) /\
    off32v (16 * INR c + 60) (V * (1 + B2R e)) (snd (@coe2rv _ N p e incl raan argp f mu)) (elements_velocity (B2R p) (B2R e) In' Om Pe (B2R f) (B2R mu)).
  Proof using All.
    destruct second_ok as [X [Y Z]]. destruct rpf_ok as [R0 [R1 R2]]. destruct vpf_ok as [V0 [V1 V2]].
    assert (K1 : 4 * (INR (c + c + 3 + c + 3 + (c + 4 + c + 1) + 3) + 1) = 20 * INR c + 60).
    { replace (c + c + 3 + c + 3 + (c + 4 + c + 1) + 3)%nat with (5 * c + 14)%nat by lia. rewrite plus_INR, mult_INR. simpl. ring. }
    assert (K2 : 4 * (INR (c + c + 3 + c + 3 + (c + 5) + 3) + 1) = 16 * INR c + 60).
    { replace (c + c + 3 + c + 3 + (c + 5) + 3)%nat with (4 * c + 14)%nat by lia. rewrite plus_INR, mult_INR. simpl. ring. }
    assert (Fin : forall C m g v v', off C m g v -> v = v' -> off C m g v') by (intros C m g v v' HH <-; exact HH).
    cbv zeta. rewrite <- K1, <- K2. fold N.
    set (A := @mmul _ N (@mmul _ N (@rotmat3dz _ N raan) (@rotmat3dx _ N incl)) (@rotmat3dz _ N argp)) in *.
    split; (split; [| split]).
    - apply (Fin _ _ _ _ _ (apply_row _ _ _ _ _ _ _ _ _ _ _ _ _ _ X ltac:(lra) ltac:(lra) R0 R1 R2 ltac:(lia) ltac:(lia))).
      unfold elements_position, RM, PQ, w; cbn [smul c0 c1 c2]. rewrite cos_plus, sin_plus. ring.
    - apply (Fin _ _ _ _ _ (apply_row _ _ _ _ _ _ _ _ _ _ _ _ _ _ Y ltac:(lra) ltac:(lra) R0 R1 R2 ltac:(lia) ltac:(lia))).
      unfold elements_position, RM, PQ, w; cbn [smul c0 c1 c2]. rewrite cos_plus, sin_plus. ring.
    - apply (Fin _ _ _ _ _ (apply_row _ _ _ _ _ _ _ _ _ _ _ _ _ _ Z ltac:(lra) ltac:(lra) R0 R1 R2 ltac:(lia) ltac:(lia))).
      unfold elements_position, RM, PQ, w; cbn [smul c0 c1 c2]. rewrite sin_plus. ring.
    - apply (Fin _ _ _ _ _ (apply_row _ _ _ _ _ _ _ _ _ _ _ _ _ _ X ltac:(lra) ltac:(lra) V0 V1 V2 ltac:(lia) ltac:(lia))).
      unfold elements_velocity, RM, PQ; cbn [smul c0 c1 c2]. fold V. rewrite cos_plus, sin_plus. ring.
    - apply (Fin _ _ _ _ _ (apply_row _ _ _ _ _ _ _ _ _ _ _ _ _ _ Y ltac:(lra) ltac:(lra) V0 V1 V2 ltac:(lia) ltac:(lia))).
      unfold elements_velocity, RM, PQ; cbn [smul c0 c1 c2]. fold V. rewrite cos_plus, sin_plus. ring.
    - apply (Fin _ _ _ _ _ (apply_row _ _ _ _ _ _ _ _ _ _ _ _ _ _ Z ltac:(lra) ltac:(lra) V0 V1 V2 ltac:(lia) ltac:(lia))).
      unfold elements_velocity, RM, PQ; cbn [smul c0 c1 c2]. fold V. rewrite cos_plus. ring.
  Qed.
End Coe.
