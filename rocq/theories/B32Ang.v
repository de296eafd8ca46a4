(** * B32Ang: rounding errors of the angles of rv2coe in single precision (proofs for C87) *)
From Coq Require Import ZArith Reals Lra Lia Psatz Bool List.
From Flocq Require Import Core IEEE754.BinarySingleNaN.
From Verif Require Import Num NumB32 Spec SpecFl SpecFl32 SpecFlV SpecFlAng RelLib RoundAn SqrtSqr AngReal B32Lib B32Acc B32Rel B32An B32Geo.
From Verif Require Import OrbIntegrals OrbElements.
From Verif Require B32Closed.
Local Open Scope R_scope.

Lemma F32_1 : F32 1.
Proof. rewrite <- (Rmult_1_l 1). exact (F32_scaled 1 0 ltac:(simpl; lia) ltac:(lia)). Qed.

Section Ang.
  Variable L : libm.
  Variable c : nat.
  Hypothesis Inv : inverse32 L c.
  Hypothesis Hc : (c <= 40)%nat.
  Let N : Num b32 := Num_B32 L.
  Let e : R := / IZR (2 ^ 24).
  Let e_pos : 0 < e <= / 1000000. Proof using. unfold e; simpl; lra. Qed.
  Let c8 : 0 <= INR c <= 40. Proof using Hc. split; [apply pos_INR |]. apply le_INR in Hc. simpl in Hc. lra. Qed.

  Definition two_pi : b32 := @n_mul _ N (@n_Z _ N 2) (@n_pi _ N).
  Lemma two_pi_ok : is_finite two_pi = true /\ Rabs (B2R two_pi - 2 * PI) <= 24 * e /\ B2R two_pi = 2 * B2R b32_pi.
  Proof using All.
    pose proof B32Closed.Fl_two_pi as F. destruct (Fl_close 2 _ _ ltac:(lia) F) as [_ C]. destruct F as [Fi _]. change (b32_mul (b32_Z 2) b32_pi) with two_pi in Fi, C.
    split; [exact Fi |]. split.
    - unfold close in C. simpl INR in C. apply Rle_trans with (1 := C). pose proof PI_4. pose proof PI_RGT_0. rewrite (Rabs_pos_eq (2 * PI)) by lra. unfold eps, e. simpl. lra.
    - destruct (value two_pi false 13176795 (-21) ltac:(vm_compute; reflexivity)) as [_ V1]. destruct (value b32_pi false 13176795 (-22) ltac:(vm_compute; reflexivity)) as [_ V2].
      rewrite V1, V2. simpl. lra.
  Qed.
  Lemma pi_big : 3 <= B2R b32_pi <= 315 / 100.
  Proof using All. destruct (value b32_pi false 13176795 (-22) ltac:(vm_compute; reflexivity)) as [_ V2]. rewrite V2. simpl. lra. Qed.

  Definition wrap (a : b32) : b32 := @where_ _ (@n_lt _ N a (@n_Z _ N 0)) (@n_add _ N two_pi a) a.

  Lemma wrap_ok (a : b32) : is_finite a = true -> - B2R b32_pi <= B2R a <= B2R b32_pi ->
    is_finite (wrap a) = true /\ 0 <= B2R (wrap a) <= B2R two_pi /\ exists j : nat, Rabs (B2R (wrap a) - (B2R a + 2 * INR j * PI)) <= 31 * e.
  Proof using All.
    intros Fa Ba. destruct two_pi_ok as [F2 [E2 V2]]. pose proof pi_big as P.
    destruct (Fl_int 0 ltac:(lia)) as [F0 [t [V0 _]]]. rewrite Rmult_0_l in V0.
    unfold wrap, where_. change (@n_lt _ N a (@n_Z _ N 0)) with (Bltb a (b32_Z 0)). rewrite (lt_exact a (b32_Z 0) Fa F0), V0.
    destruct (Rlt_bool_spec (B2R a) 0) as [H | H].
    - destruct (f_add' L two_pi a F2 Fa) as [V F]; [assert (8 <= IZR (2 ^ 109)) by (apply IZR_le; apply Z.leb_le; vm_compute; reflexivity); apply Rabs_le; split; rewrite V2; lra |].
      fold N in V, F. split; [exact F |]. rewrite V. split.
      + split; [apply rnd_ge; [exact F32_0 | lra] | apply rnd_le; [apply F32_B2R | lra]].
      + exists 1%nat. simpl INR. pose proof (rnd_abs (B2R two_pi + B2R a)) as E. apply Rabs_le_inv in E2.
        rewrite (Rabs_pos_eq (B2R two_pi + B2R a)) in E by lra. apply Rabs_le_inv in E.
        assert (T : / IZR (2 ^ 149) <= / 10 * e).
        { unfold e. apply Rle_trans with (/ IZR (2 ^ 100)); [apply Rinv_le; [apply IZR_lt; lia | apply IZR_le; lia] | simpl; lra]. }
        assert (S : eps * (B2R two_pi + B2R a) <= 64 / 10 * e).
        { assert (B : B2R two_pi + B2R a <= 63 / 10) by (rewrite V2; lra). unfold eps. fold e. change (eps) with e. unfold e. nra. }
        apply Rabs_le. lra.
    - split; [exact Fa |]. split; [rewrite V2; lra |]. exists 0%nat. simpl INR. rewrite Rmult_0_r, Rmult_0_l, Rplus_0_r.
      unfold Rminus. rewrite Rplus_opp_r, Rabs_R0. lra.
  Qed.

  (** the angle computed from two rounded numbers *)
  Lemma direction (ry rx : Z) (ky kx : nat) (m : R) (Y X : b32) (y x : R) : (ky <= 90)%nat -> (kx <= 90)%nat ->
    Er32 ry ky m Y y -> Er32 rx kx m X x -> let g := wrap (@n_arctan2 _ N Y X) in
    polar32 (3 * INR c + 2 * INR ky + 2 * INR kx + 70) m (sqrt (x ^ 2 + y ^ 2)) g x y /\ 0 <= B2R g <= B2R two_pi.
  Proof using All.
    intros Ky Kx EY EX g. destruct (An_off L _ _ _ _ _ Ky EY) as [FY DY]. destruct (An_off L _ _ _ _ _ Kx EX) as [FX DX].
    pose proof (An_m L _ _ _ _ _ EY) as M0. pose proof (pos_INR ky) as P1. pose proof (pos_INR kx) as P2.
    destruct EY as [_ [_ [By _]]]. destruct EX as [_ [_ [Bx _]]].
    destruct (proj1 Inv Y X FY FX) as [Br [Fr [C S]]]. fold (hyp (B2R X) (B2R Y)) in C, S.
    set (a := m_arctan2 L Y X) in *. change (@n_arctan2 _ N Y X) with a in g. fold e in C, S, DY, DX.
    destruct (wrap_ok a Fr Br) as [Fg [Bg [j J]]]. fold g in Fg, Bg, J. split; [| exact Bg].
    destruct (polar_moved x y (B2R X) (B2R Y) (B2R a) _ _ (INR c * e) ltac:(apply Rmult_le_pos; lra) DX DY C S) as [C1 S1].
    fold (hyp x y). pose proof (hyp_le x y m Bx By) as Q. pose proof (hyp_pos x y) as Q0. set (q := hyp x y) in *.
    set (dx := (INR kx + 1) * e * m) in *. set (dy := (INR ky + 1) * e * m) in *.
    assert (Kb : INR kx <= 90 /\ INR ky <= 90) by (split; [apply le_INR in Kx; simpl in Kx; lra | apply le_INR in Ky; simpl in Ky; lra]).
    assert (em : 0 <= e * m) by (apply Rmult_le_pos; lra).
    assert (eem : e * (e * m) <= / 1000000 * (e * m)) by (apply Rmult_le_compat_r; lra).
    assert (Dx : 0 <= dx /\ dx = (INR kx + 1) * (e * m)) by (unfold dx; split; [rewrite Rmult_assoc; apply Rmult_le_pos; lra | ring]).
    assert (Dy : 0 <= dy /\ dy = (INR ky + 1) * (e * m)) by (unfold dy; split; [rewrite Rmult_assoc; apply Rmult_le_pos; lra | ring]).
    assert (Hk : INR c * e * (q + dx + dy) <= (2 * INR c + 1 / 100) * (e * m)).
    { assert (e * dx <= / 10000 * (e * m) /\ e * dy <= / 10000 * (e * m)).
      { rewrite (proj2 Dx), (proj2 Dy). split; (rewrite Rmult_comm, Rmult_assoc, (Rmult_comm _ e); nra). }
      assert (e * q <= 2 * (e * m)) by (replace (2 * (e * m)) with (e * (2 * m)) by ring; apply Rmult_le_compat_l; lra).
      assert (e * (q + dx + dy) <= (2 + 2 / 10000) * (e * m)) by lra.
      replace (INR c * e * (q + dx + dy)) with (INR c * (e * (q + dx + dy))) by ring. nra. }
    assert (Hq : q * (31 * e) <= 62 * (e * m)) by (replace (62 * (e * m)) with (2 * m * (31 * e)) by ring; apply Rmult_le_compat_r; lra).
    set (b := 2 * dx + 2 * dy + INR c * e * (q + dx + dy)).
    destruct (polar_turned q x y (B2R a) (B2R g) (31 * e) b j Q0 J ltac:(unfold b; lra) ltac:(unfold b; lra)) as [C2 S2].
    assert (T : b + q * (31 * e) <= (3 * INR c + 2 * INR ky + 2 * INR kx + 70) * e * m).
    { replace ((3 * INR c + 2 * INR ky + 2 * INR kx + 70) * e * m) with ((3 * INR c + 2 * INR ky + 2 * INR kx + 70) * (e * m)) by ring.
      unfold b. rewrite (proj2 Dx) at 1. rewrite (proj2 Dy) at 1.
      assert (0 <= INR c * (e * m)) by (apply Rmult_le_pos; lra). nra. }
    split; [exact Fg |]. fold e. split; lra.
  Qed.

  Variables (r v : V3 b32) (mu : b32).
  Hypotheses (Gr : good32v 17 r) (Gv : good32v 8 v) (Gm : good32 20 mu) (Pm : 0 < B2R mu).
  Let X : R := vnorm (real32 r).
  Let V : R := vnorm (real32 v).
  Let M : R := B2R mu.
  Let h := cross (real32 r) (real32 v).
  Let ev := laplace M (real32 r) (real32 v).
  Let nv : vec := mk3 (- c1 h) (c0 h) 0.
  Let hf := @angular_momentum _ N r v.
  Let ef := @eccentricity_vector _ N r v mu.
  Let bigg : R := 2 * (V * (X * V)) / M + 1.

  Let hE : Ev32 25 2 (X * V) hf h := h_ok L r v Gr Gv.

  Lemma node_ok : Ev32 26 4 (2 * (X * V)) (@node_vec _ N hf) nv.
  Proof using All.
    pose proof (An_Z L 0 0 ltac:(lia) ltac:(lia) ltac:(lia)) as O0. pose proof (An_Z L 0 1 ltac:(lia) ltac:(lia) ltac:(lia)) as O1. rewrite Rabs_R1 in O1. rewrite Rabs_R0 in O0.
    assert (I1 : in_range 0 1) by exact one_range.
    apply (An_weak L 0 0 0 0 _ 1) in O0; [| lra | lia | exact I1 | lia].
    assert (Z : Ev32 0 0 1 (mk3 (@n_Z _ N 0) (@n_Z _ N 0) (@n_Z _ N 1)) (mk3 0 0 1)) by (split; [| split]; assumption).
    pose proof (Ev_cross L _ _ _ _ _ _ _ _ _ _ Z hE ltac:(lia) ltac:(lia)) as K. rewrite Rmult_1_l in K.
    replace (cross (mk3 0 0 1) h) with nv in K by (unfold nv, cross; cbn [c0 c1 c2]; f_equal; ring). exact K.
  Qed.

  (** ** Right ascension *)
  Lemma raan_ok : let g := @right_ascension _ N (@node_vec _ N hf) in
    polar32 (3 * INR c + 90) (2 * (X * V)) (sqrt (c1 h ^ 2 + c0 h ^ 2)) g (- c1 h) (c0 h) /\ 0 <= B2R g <= B2R two_pi.
  Proof using All.
    intro g. destruct node_ok as [A [B _]]. destruct (direction 26 26 4 4 _ _ _ _ _ ltac:(lia) ltac:(lia) B A) as [[F [P1 P2]] Bd].
    change (@n_arctan2 _ N _ _) with (@n_arctan2 _ N (c1 (@node_vec _ N hf)) (c0 (@node_vec _ N hf))) in *. fold g in F, P1, P2, Bd.
    cbn [c0 c1 nv] in *. simpl INR in P1, P2. replace ((- c1 h) ^ 2) with (c1 h ^ 2) in P1, P2 by ring.
    assert (K : 3 * INR c + 2 * (1 + 1 + 1 + 1) + 2 * (1 + 1 + 1 + 1) + 70 <= 3 * INR c + 90) by lra.
    pose proof (Ev_m L _ _ _ _ _ node_ok) as M0.
    split; [| exact Bd]. split; [exact F |]. split; (eapply Rle_trans; [eassumption |]; apply Rmult_le_compat_r; [exact M0 |]; apply Rmult_le_compat_r; [fold e; lra | exact K]).
  Qed.

  (** ** Argument of periapsis and true anomaly *)
  Section Periapsis.
  Hypothesis Slow : X * V ^ 2 <= 1000 * M.
  Hypothesis Nr : real32 r <> vzero.
  Lemma eE : Ev32 11 7 bigg ef ev.
  Proof using All. exact (e_ok' L r v Gr Gv mu Gm Pm Nr Slow). Qed.

  Lemma lagrange_id (a b : vec) : dot a b ^ 2 + vnorm (cross a b) ^ 2 = (vnorm a * vnorm b) ^ 2.
  Proof using.
    clear. assert (P : forall a, vnorm a ^ 2 = dot a a).
    { intro w. unfold vnorm. simpl. rewrite Rmult_1_r. apply sqrt_sqrt. unfold dot. nra. }
    rewrite Rpow_mult_distr, !P. unfold dot, cross; cbn [c0 c1 c2]. ring.
  Qed.
  Lemma between (ra rb : Z) (j k : nat) (m n : R) (A B : V3 b32) (a b : vec) : Ev32 ra j m A a -> Ev32 rb k n B b ->
    (ra + rb <= 45)%Z -> (j + k <= 20)%nat -> let g := wrap (@n_arctan2 _ N (@vector_norm _ N (@vcross _ N A B)) (@vinner _ N A B)) in
    polar32 (3 * INR c + 4 * INR (j + k) + 95) (4 * (m * n)) (vnorm a * vnorm b) g (dot a b) (vnorm (cross a b)) /\ 0 <= B2R g <= B2R two_pi.
  Proof using All.
    intros EA EB R1 K1 g. pose proof (Ev_r L _ _ _ _ _ EA) as ra0. pose proof (Ev_r L _ _ _ _ _ EB) as rb0.
    pose proof (Ev_m L _ _ _ _ _ EA) as m0. pose proof (Ev_m L _ _ _ _ _ EB) as n0. assert (mn : 0 <= m * n) by (apply Rmult_le_pos; assumption).
    pose proof (Ev_cross L _ _ _ _ _ _ _ _ _ _ EA EB ltac:(lia) ltac:(lia)) as C.
    pose proof (Ev_norm L _ _ _ _ _ C ltac:(lia) ltac:(lia)) as Y.
    pose proof (Ev_inner L _ _ _ _ _ _ _ _ _ _ EA EB ltac:(lia) ltac:(lia)) as D.
    assert (I : in_range (ra + rb + 1 + 1) (2 * (2 * (m * n)))) by apply Y.
    assert (I4 : in_range (ra + rb + 2) (4 * (m * n))) by (replace (4 * (m * n)) with (2 * (2 * (m * n))) by ring; replace (ra + rb + 2)%Z with (ra + rb + 1 + 1)%Z by lia; exact I).
    apply (An_weak L _ (ra + rb + 2)%Z _ (j + k + 8)%nat _ (4 * (m * n))) in Y; [| lra | lia | exact I4 | lia].
    apply (An_weak L _ (ra + rb + 2)%Z _ (j + k + 3)%nat _ (4 * (m * n))) in D; [| lra | lia | exact I4 | lia].
    destruct (direction _ _ (j + k + 8) (j + k + 3) _ _ _ _ _ ltac:(lia) ltac:(lia) Y D) as [[F [P1 P2]] Bd]. fold g in F, P1, P2, Bd.
    assert (Q : sqrt (dot a b ^ 2 + vnorm (cross a b) ^ 2) = vnorm a * vnorm b).
    { rewrite lagrange_id. replace ((vnorm a * vnorm b) ^ 2) with (vnorm a * vnorm b * (vnorm a * vnorm b)) by ring. apply sqrt_square. apply Rmult_le_pos; apply sqrt_pos. }
    rewrite Q in P1, P2. split; [| exact Bd]. rewrite !plus_INR in *. simpl (INR 8) in *. simpl (INR 3) in *.
    split; [exact F |]. split; (eapply Rle_trans; [eassumption |]; apply Rmult_le_compat_r; [lra |]; apply Rmult_le_compat_r; [fold e; lra | lra]).
  Qed.

  Lemma widen (C D m m' q : R) (g : b32) (x y : R) : polar32 C m q g x y -> C <= D -> 0 <= C -> 0 <= m -> m <= m' -> polar32 D m' q g x y.
  Proof using.
    intros [F [P1 P2]] HC C0 m0 Hm. assert (K : C * / IZR (2 ^ 24) * m <= D * / IZR (2 ^ 24) * m').
    { fold e. pose proof e_pos. apply Rmult_le_compat; [apply Rmult_le_pos; lra | exact m0 | apply Rmult_le_compat_r; lra | exact Hm]. }
    split; [exact F |]. split; lra.
  Qed.

  Lemma argp_ok : let g := @argument_of_periapsis _ N (@node_vec _ N hf) ef in
    polar32 (3 * INR c + 139) (8 * (X * V) * (2 * X * V ^ 2 / M + 1)) (vnorm nv * vnorm ev) g (dot nv ev) (vnorm (cross nv ev)) /\ 0 <= B2R g <= B2R two_pi.
  Proof using All.
    intro g. destruct (between 26 11 4 7 _ _ _ _ _ _ node_ok eE ltac:(lia) ltac:(lia)) as [P Bd]. split; [| exact Bd].
    pose proof (Ev_m L _ _ _ _ _ node_ok) as m0. pose proof (Ev_m L _ _ _ _ _ eE) as n0.
    apply (widen _ _ _ _ _ _ _ _ P); [simpl INR; lra | simpl INR; lra | apply Rmult_le_pos; [lra | apply Rmult_le_pos; assumption] |].
    right. unfold bigg. field. unfold M. lra.
  Qed.
  Lemma anom_ok : let g := @true_anomaly _ N r ef in
    polar32 (3 * INR c + 123) (4 * X * (2 * X * V ^ 2 / M + 1)) (vnorm ev * X) g (dot ev (real32 r)) (vnorm (cross ev (real32 r))) /\ 0 <= B2R g <= B2R two_pi.
  Proof using All.
    intro g. pose proof (Ev_good L 17 r ltac:(lia) Gr) as Or.
    destruct (between 11 17 7 0 _ _ _ _ _ _ eE Or ltac:(lia) ltac:(lia)) as [P Bd]. split; [| exact Bd].
    pose proof (Ev_m L _ _ _ _ _ Or) as m0. pose proof (Ev_m L _ _ _ _ _ eE) as n0.
    apply (widen _ _ _ _ _ _ _ _ P); [simpl INR; lra | simpl INR; lra | apply Rmult_le_pos; [lra | apply Rmult_le_pos; assumption] |].
    right. unfold bigg. fold X. field. unfold M. lra.
  Qed.
  End Periapsis.

  (** ** Inclination *)
  Lemma hn_ok : Er32 26 8 (2 * (X * V)) (@vector_norm _ N hf) (vnorm h).
  Proof using All. exact (Ev_norm L 25 2 _ _ _ hE ltac:(lia) ltac:(lia)). Qed.

  Hypothesis Wide : 50 * e * (X * V) < vnorm h.
  Let H : R := vnorm h.
  Let X0 : 0 <= X. Proof using. apply sqrt_pos. Qed.
  Let V0 : 0 <= V. Proof using. apply sqrt_pos. Qed.
  Let nf : R := B2R (@vector_norm _ N hf).
  Let zf : R := B2R (c2 hf).

  Lemma n_near : Rabs (nf - H) <= 18 * e * (X * V).
  Proof using All.
    destruct (An_off L 26 8 _ _ _ ltac:(lia) hn_ok) as [_ D]. simpl INR in D. fold nf H e in D. lra.
  Qed.
  Lemma n_low : 32 * e * (X * V) < nf.
  Proof using All. pose proof n_near as D. apply Rabs_le_inv in D. fold H in Wide. lra. Qed.
  Lemma xv_low : / IZR (2 ^ 25) <= X * V.
  Proof using All.
    destruct hE as [_ [_ [_ [_ [_ [[Z | I] _]]]]]].
    - exfalso. pose proof n_low as K. pose proof n_near as K'. apply Rabs_le_inv in K'.
      assert (H <= 2 * (X * V)).
      { destruct hn_ok as [_ [_ [B _]]]. fold H in B. rewrite Rabs_pos_eq in B by apply sqrt_pos. exact B. }
      fold H in Wide. rewrite Z in *. lra.
    - rewrite Rabs_pos_eq in I by (apply Rmult_le_pos; assumption). apply I.
  Qed.

  (** the rounded cosine of the inclination never leaves [-1, 1] *)
  Lemma z_le_n : Rabs zf <= nf.
  Proof using All.
    destruct (Rle_lt_dec (/ IZR (2 ^ 52)) (Rabs zf)) as [Q | Q].
    - destruct hE as [hx [hy hz]].
      pose proof (An_mul L _ _ _ _ _ _ _ _ _ _ hx hx ltac:(lia) ltac:(lia)) as Q1.
      pose proof (An_mul L _ _ _ _ _ _ _ _ _ _ hy hy ltac:(lia) ltac:(lia)) as Q2.
      pose proof (An_mul L _ _ _ _ _ _ _ _ _ _ hz hz ltac:(lia) ltac:(lia)) as Q3.
      pose proof (An_add L _ _ _ _ _ _ _ _ _ _ Q1 Q2 ltac:(lia) ltac:(lia)) as Q12.
      assert (Er_le : forall rr k m (x : b32) w, Er32 rr k m x w -> (k <= 90)%nat -> Rabs (B2R x) <= 2 * m).
      { intros rr k m x w E K. destruct (An_off L _ _ _ _ _ K E) as [_ D]. fold e in D. pose proof (An_m L _ _ _ _ _ E) as Pm'.
        destruct E as [_ [_ [B _]]]. replace (B2R x) with ((B2R x - w) + w) by ring. apply Rle_trans with (1 := Rabs_triang _ _).
        apply le_INR in K. simpl in K. pose proof (pos_INR k). assert ((INR k + 1) * e * m <= m); [| lra].
        rewrite <- (Rmult_1_l m) at 2. apply Rmult_le_compat_r; [exact Pm' |]. nra. }
      destruct hE as [Hx [Hy Hz]]. destruct Hx as [Fx [_ [_ [Ix _]]]]. destruct Hy as [Fy _]. destruct Hz as [Fz _].
      set (m := X * V) in *. assert (m0 : 0 <= m) by (apply Rmult_le_pos; assumption).
      assert (mb : m <= IZR (2 ^ 25)).
      { destruct Ix as [Z | I]; [rewrite Z; pose proof (two_pow 25 ltac:(lia)); lra | rewrite Rabs_pos_eq in I by exact m0; apply I]. }
      assert (mm : m * m <= IZR (2 ^ 50)).
      { change (2 ^ 50)%Z with (2 ^ 25 * 2 ^ 25)%Z. rewrite mult_IZR. apply Rmult_le_compat; assumption. }
      assert (Big : 16 * IZR (2 ^ 50) <= 2 * IZR (2 ^ 109)) by (rewrite <- !mult_IZR; apply IZR_le; apply Z.leb_le; vm_compute; reflexivity).
      assert (Sq : forall x : b32, is_finite x = true -> Rabs (B2R x) <= 2 * m -> Rabs (B2R x * B2R x) <= 2 * IZR (2 ^ 109)).
      { intros x _ B. rewrite Rabs_mult. assert (Rabs (B2R x) * Rabs (B2R x) <= 2 * m * (2 * m)) by (apply Rmult_le_compat; try apply Rabs_pos; assumption). lra. }
      destruct (f_mul' L _ _ Fx Fx (Sq _ Fx (Er_le _ _ _ _ _ hx ltac:(lia)))) as [V1 _].
      destruct (f_mul' L _ _ Fy Fy (Sq _ Fy (Er_le _ _ _ _ _ hy ltac:(lia)))) as [V2 _].
      destruct (f_mul' L _ _ Fz Fz (Sq _ Fz (Er_le _ _ _ _ _ hz ltac:(lia)))) as [V3 _].
      pose proof (Er_le _ _ _ _ _ Q1 ltac:(lia)) as B1. pose proof (Er_le _ _ _ _ _ Q2 ltac:(lia)) as B2. pose proof (Er_le _ _ _ _ _ Q3 ltac:(lia)) as B3.
      pose proof (Er_le _ _ _ _ _ Q12 ltac:(lia)) as B12.
      destruct Q1 as [F1 _]. destruct Q2 as [F2 _]. destruct Q3 as [F3 _]. destruct Q12 as [F12 _].
      destruct (f_add' L _ _ F1 F2) as [V12 _].
      { apply Rle_trans with (1 := Rabs_triang _ _). lra. }
      destruct (f_add' L _ _ F12 F3) as [V123 F123].
      { apply Rle_trans with (1 := Rabs_triang _ _). lra. }
      assert (P1 : 0 <= rnd (B2R (c0 hf) * B2R (c0 hf))) by (apply rd_pos'; nra).
      assert (P2 : 0 <= rnd (B2R (c1 hf) * B2R (c1 hf))) by (apply rd_pos'; nra).
      assert (P12 : 0 <= rnd (rnd (B2R (c0 hf) * B2R (c0 hf)) + rnd (B2R (c1 hf) * B2R (c1 hf)))) by (apply rd_pos'; lra).
      fold N in V1, V2, V3, V12, V123, F123. rewrite V12, V3, V1, V2 in V123. fold zf in V123.
      set (s := rnd (rnd (rnd (B2R (c0 hf) * B2R (c0 hf)) + rnd (B2R (c1 hf) * B2R (c1 hf))) + rnd (zf * zf))) in *.
      assert (S : rnd (zf * zf) <= s).
      { unfold s. rewrite <- (rnd_id (rnd (zf * zf))) at 1; [| apply generic_format_round; [exact fx_valid | apply valid_rnd_N]]. apply rnd_mono. lra. }
      assert (S0 : 0 <= s) by (apply Rle_trans with (2 := S); apply rd_pos'; nra).
      unfold nf. unfold vector_norm.
      destruct (f_sqrt' L _ F123 ltac:(rewrite V123; exact S0)) as [Vn _]. fold N in Vn.
      change (@vinner _ N hf hf) with (@n_add _ N (@n_add _ N (@n_mul _ N (c0 hf) (c0 hf)) (@n_mul _ N (c1 hf) (c1 hf))) (@n_mul _ N (c2 hf) (c2 hf))).
      rewrite Vn, V123.
      assert (Zn : zf <> 0).
      { intro Z0. rewrite Z0, Rabs_R0 in Q. pose proof (two_pow_inv 52 ltac:(lia)). lra. }
      set (k := mag radix2 zf : Z). assert (Kz : bpow radix2 (k - 1) <= Rabs zf < bpow radix2 k).
      { unfold k. destruct (mag radix2 zf) as [k' Hk]. simpl. exact (Hk Zn). }
      assert (Hk : (- 52 < k)%Z).
      { apply (lt_bpow radix2). apply Rle_lt_trans with (2 := proj2 Kz). apply Rle_trans with (2 := Q). right. exact (bpow_opp radix2 52). }
      apply (sqrt_sqr 24 (-149) ltac:(lia) (fun x => negb (Z.even x)) zf s k); [apply F32_B2R | exact Kz | lia | lia | exact S].
    - apply Rlt_le, Rlt_trans with (1 := Q). apply Rlt_trans with (2 := n_low). pose proof xv_low as K.
      apply Rlt_le_trans with (32 * e * / IZR (2 ^ 25)).
      + unfold e. change (IZR (2 ^ 52)) with (IZR (2 ^ 24 * (2 ^ 25 * 2 ^ 3))). rewrite !mult_IZR.
        pose proof (two_pow 24 ltac:(lia)). pose proof (two_pow 25 ltac:(lia)). pose proof (two_pow 3 ltac:(lia)) as Td.
        rewrite !Rinv_mult. pose proof (two_pow_inv 24 ltac:(lia)). pose proof (two_pow_inv 25 ltac:(lia)). pose proof (two_pow_inv 3 ltac:(lia)) as Ti.
        set (p1 := / IZR (2 ^ 24)) in *. set (p2 := / IZR (2 ^ 25)) in *. set (p3 := / IZR (2 ^ 3)) in *.
        replace (p1 * (p2 * p3)) with (p1 * p2 * p3) by ring. replace (32 * p1 * p2) with (p1 * p2 * 32) by ring. apply Rmult_lt_compat_l; [apply Rmult_lt_0_compat; lra | lra].
      + apply Rmult_le_compat_l; [lra | exact K].
  Qed.

  Lemma incl_ok : let i := @inclination _ N hf in
    is_finite i = true /\ 0 <= B2R i <= B2R b32_pi /\ Rabs (H * cos (B2R i) - c2 h) <= (3 * INR c + 30) * e * (X * V).
  Proof using All.
    intro i. pose proof n_low as Nl. pose proof n_near as Nn. pose proof z_le_n as Zn. pose proof xv_low as Xl.
    pose proof (two_pow_inv 25 ltac:(lia)) as Ti. set (m := X * V) in *. assert (m0 : 0 < m) by lra.
    assert (em : 0 < e * m) by (apply Rmult_lt_0_compat; lra). assert (Np : 0 < nf) by lra.
    destruct hE as [_ [_ hz]]. destruct (An_off L 25 2 _ _ _ ltac:(lia) hz) as [Fz Dz]. fold zf e in Dz. simpl INR in Dz.
    assert (Rt : Rabs (zf / nf) <= 1).
    { unfold Rdiv. rewrite Rabs_mult, Rabs_inv, (Rabs_pos_eq nf) by lra. apply Rmult_le_reg_r with nf; [exact Np |]. rewrite Rmult_assoc, Rinv_l by lra. lra. }
    destruct (f_div' L (c2 hf) (@vector_norm _ N hf) Fz ltac:(fold nf; lra)) as [Vg Fg].
    { fold zf nf. apply Rle_trans with (1 := Rt). pose proof (two_pow 109 ltac:(lia)). lra. }
    fold N zf nf in Vg, Fg. set (g := @n_div _ N (c2 hf) (@vector_norm _ N hf)) in *.
    assert (Bg : Rabs (B2R g) <= 1).
    { rewrite Vg. apply Rabs_le_inv in Rt. apply Rabs_le. split; [| apply rnd_le; [exact F32_1 | lra]]. apply rnd_ge; [apply F32_opp; exact F32_1 | lra]. }
    destruct (proj2 Inv g Fg Bg) as [Fi [Bi Ci]]. change (m_arccos L g) with i in Fi, Bi, Ci. fold e in Ci.
    split; [exact Fi |]. split; [exact Bi |].
    assert (Dg : Rabs (nf * B2R g - zf) <= 101 / 100 * e * nf).
    { pose proof (rnd_abs (zf / nf)) as E. rewrite <- Vg in E. replace (nf * B2R g - zf) with (nf * (B2R g - zf / nf)) by (field; lra).
      rewrite Rabs_mult, (Rabs_pos_eq nf) by lra. rewrite (Rmult_comm _ nf). apply Rmult_le_compat_l; [lra |]. apply Rle_trans with (1 := E).
      assert (T : / IZR (2 ^ 149) <= / 100 * e).
      { unfold e. apply Rle_trans with (/ IZR (2 ^ 100)); [apply Rinv_le; [apply IZR_lt; lia | apply IZR_le; lia] | simpl; lra]. }
      assert (eps * Rabs (zf / nf) <= e * 1) by (unfold eps, e; apply Rmult_le_compat; [simpl; lra | apply Rabs_pos | simpl; lra | exact Rt]). lra. }
    assert (Hb : H <= 2 * m) by (destruct hn_ok as [_ [_ [B _]]]; fold H in B; rewrite Rabs_pos_eq in B by apply sqrt_pos; exact B).
    assert (Dc : Rabs (nf * (cos (B2R i) - B2R g)) <= INR c * e * nf).
    { rewrite Rabs_mult, (Rabs_pos_eq nf) by lra. rewrite (Rmult_comm _ nf). apply Rmult_le_compat_l; [lra | exact Ci]. }
    pose proof (COS_bound (B2R i)) as Cb.
    replace (H * cos (B2R i) - c2 h) with (- ((nf - H) * cos (B2R i)) + (nf * (cos (B2R i) - B2R g) + ((nf * B2R g - zf) + (zf - c2 h)))) by ring.
    assert (Dn : Rabs (- ((nf - H) * cos (B2R i))) <= 18 * e * m).
    { rewrite Rabs_Ropp, Rabs_mult. assert (Rabs (cos (B2R i)) <= 1) by (apply Rabs_le; lra). pose proof (Rabs_pos (nf - H)). pose proof (Rabs_pos (cos (B2R i))). nra. }
    assert (Nb : nf <= 21 / 10 * m).
    { apply Rabs_le_inv in Nn. assert (18 * e * m <= / 10 * m) by (apply Rmult_le_compat_r; lra). lra. }
    assert (Sum : INR c * e * nf + 101 / 100 * e * nf <= (21 / 10 * INR c + 3) * (e * m)).
    { assert (e * nf <= 21 / 10 * (e * m)) by (replace (21 / 10 * (e * m)) with (e * (21 / 10 * m)) by ring; apply Rmult_le_compat_l; lra).
      assert (0 <= e * nf) by (apply Rmult_le_pos; lra).
      replace (INR c * e * nf + 101 / 100 * e * nf) with ((INR c + 101 / 100) * (e * nf)) by ring.
      apply Rle_trans with ((INR c + 101 / 100) * (21 / 10 * (e * m))); [apply Rmult_le_compat_l; lra |]. lra. }
    apply Rle_trans with (18 * e * m + (INR c * e * nf + (101 / 100 * e * nf + (1 + 1 + 1) * e * m))).
    { repeat (apply Rle_trans with (1 := Rabs_triang _ _); apply Rplus_le_compat; [assumption |]). exact Dz. }
    assert (0 <= INR c * (e * m)) by (apply Rmult_le_pos; lra). lra.
  Qed.
End Ang.

Lemma elements_ok (L : libm) (c : nat) : inverse32 L c -> (c <= 40)%nat -> forall (r v : V3 b32) (mu : b32),
  good32v 17 r -> good32v 8 v -> good32 20 mu -> 0 < B2R mu -> real32 r <> vzero ->
  let X := vnorm (real32 r) in let V := vnorm (real32 v) in let M := B2R mu in X * V ^ 2 <= 1000 * M ->
  let h := cross (real32 r) (real32 v) in let n := cross (mk3 0 0 1) h in let ev := laplace M (real32 r) (real32 v) in
  let k := @rv2coe _ (Num_B32 L) r v mu in let G := 2 * X * V ^ 2 / M + 1 in let turn := 2 * B2R b32_pi in
  off 20 (4 * X ^ 2 * V ^ 2 / M) (coe_p k) (dot h h / M) /\
  off 14 (2 * G) (coe_e k) (vnorm ev) /\
  (polar32 (3 * INR c + 90) (2 * (X * V)) (vnorm n) (coe_raan k) (c0 n) (c1 n) /\ 0 <= B2R (coe_raan k) <= turn) /\
  (polar32 (3 * INR c + 139) (8 * (X * V) * G) (vnorm n * vnorm ev) (coe_argp k) (dot n ev) (vnorm (cross n ev)) /\ 0 <= B2R (coe_argp k) <= turn) /\
  (polar32 (3 * INR c + 123) (4 * X * G) (vnorm ev * X) (coe_f k) (dot ev (real32 r)) (vnorm (cross ev (real32 r))) /\ 0 <= B2R (coe_f k) <= turn).
Proof.
  intros Inv Hc r v mu Gr Gv Gm Pm Nr X V M Slow h n ev k G turn.
  destruct (two_pi_ok L c Inv Hc) as [_ [_ T]].
  assert (En : n = mk3 (- c1 h) (c0 h) 0) by (unfold n, cross; cbn [c0 c1 c2]; f_equal; ring).
  split; [exact (geo_p L r v Gr Gv mu Gm Pm Nr) |].
  split; [exact (geo_emag L r v Gr Gv mu Gm Pm Nr Slow) |].
  split; [| split].
  - pose proof (raan_ok L c Inv Hc r v mu Gr Gv Gm Pm) as [P B]. rewrite T in B. split; [| exact B].
    rewrite En. cbn [c0 c1]. replace (vnorm (mk3 (- c1 h) (c0 h) 0)) with (sqrt (c1 h ^ 2 + c0 h ^ 2)); [exact P |].
    unfold vnorm, dot; cbn [c0 c1 c2]. f_equal. ring.
  - pose proof (argp_ok L c Inv Hc r v mu Gr Gv Gm Pm Slow Nr) as [P B]. rewrite T in B. split; [| exact B]. rewrite En. exact P.
  - pose proof (anom_ok L c Inv Hc r v mu Gr Gv Gm Pm Slow Nr) as [P B]. rewrite T in B. split; [| exact B]. exact P.
Qed.

Lemma inclination_ok (L : libm) (c : nat) : inverse32 L c -> (c <= 40)%nat -> forall (r v : V3 b32) (mu : b32),
  good32v 17 r -> good32v 8 v -> good32 20 mu -> 0 < B2R mu ->
  let X := vnorm (real32 r) in let V := vnorm (real32 v) in let h := cross (real32 r) (real32 v) in
  50 * / IZR (2 ^ 24) * (X * V) < vnorm h ->
  let N := Num_B32 L in let i := coe_incl (@rv2coe _ N r v mu) in
  Rabs (B2R (c2 (@angular_momentum _ N r v))) <= B2R (@vector_norm _ N (@angular_momentum _ N r v)) /\
  is_finite i = true /\ 0 <= B2R i <= B2R b32_pi /\ Rabs (vnorm h * cos (B2R i) - c2 h) <= (3 * INR c + 30) * / IZR (2 ^ 24) * (X * V).
Proof.
  intros Inv Hc r v mu Gr Gv Gm Pm X V h Wide N i.
  split; [exact (z_le_n L c Inv Hc r v mu Gr Gv Gm Pm Wide) | exact (incl_ok L c Inv Hc r v mu Gr Gv Gm Pm Wide)].
Qed.

(** what the measure says about the angle itself *)
Lemma polar_reads (C m q phi : R) (g : b32) : 0 < q -> polar32 C m q g (q * cos phi) (q * sin phi) ->
  exists k : Z, Rabs (B2R g - phi - 2 * IZR k * PI) <= 3 * (C * / IZR (2 ^ 24) * m) / q.
Proof. intros Q [_ [A B]]. exact (polar_angle q (B2R g) phi _ Q A B). Qed.
