(** * StmSymp: dxdx0 preserves the symplectic form (proof for C20) *)
From Coq Require Import Reals Lra Lia Psatz.
From Coquelicot Require Import Coquelicot.
From Verif Require Import Num NumR Spec RLib Ana Uniformulas Lagrange OrbIntegrals KepEqu StateTrans
  SeriesU UFacts OrbFacts KepState KepMotion TwoBody KepRows StmAlg Stm StmFacts StmSym.
Local Open Scope R_scope.

Lemma omega_expand (f1 g1 p1 q1 f2 g2 p2 q2 a b c d : R) (x1 y1 x2 y2 r v : vec) :
  omega (vplus (vplus (smul f1 r) (smul a x1)) (vplus (smul g1 v) (smul b y1)))
        (vplus (vplus (smul p1 r) (smul c x1)) (vplus (smul q1 v) (smul d y1)))
        (vplus (vplus (smul f2 r) (smul a x2)) (vplus (smul g2 v) (smul b y2)))
        (vplus (vplus (smul p2 r) (smul c x2)) (vplus (smul q2 v) (smul d y2)))
  = (a * d - b * c) * omega x1 y1 x2 y2
    + ((a * dot r x1 + b * dot r y1) * p2 + (a * dot v x1 + b * dot v y1) * q2
       - (c * dot r x1 + d * dot r y1) * f2 - (c * dot v x1 + d * dot v y1) * g2
       - ((a * dot r x2 + b * dot r y2) * p1 + (a * dot v x2 + b * dot v y2) * q1
       - (c * dot r x2 + d * dot r y2) * f1 - (c * dot v x2 + d * dot v y2) * g1)
       + (f1 * p2 - p1 * f2) * dot r r + (f1 * q2 + g1 * p2 - p1 * g2 - q1 * f2) * dot r v
       + (g1 * q2 - q1 * g2) * dot v v).
Proof.
  unfold omega. rewrite !dot_plus_l, !dot_plus_r, !dot_smul_l, !dot_smul_r.
  try rewrite (dot_comm v r).
  try rewrite (dot_comm x1 r).
  try rewrite (dot_comm y1 r).
  try rewrite (dot_comm x2 r).
  try rewrite (dot_comm y2 r).
  try rewrite (dot_comm x1 v).
  try rewrite (dot_comm y1 v).
  try rewrite (dot_comm x2 v).
  try rewrite (dot_comm y2 v).
  try rewrite (dot_comm y1 x1).
  try rewrite (dot_comm x2 x1).
  try rewrite (dot_comm y2 x1).
  try rewrite (dot_comm x2 y1).
  try rewrite (dot_comm y2 y1).
  try rewrite (dot_comm y2 x2).
  ring.
Qed.

Section Act.
  Variables (r0 v0 r v : vec) (mu t : R).
  Hypothesis Hmu : 0 < mu.
  Hypothesis Hh : cross r0 v0 <> vzero.
  Hypothesis Hf : flows_to mu t (r0, v0) (r, v).
  Let n := vnorm r0.
  Let sg := sigmaS r0 v0 mu.
  Let al := alphaS r0 v0 mu.
  Let m := sqrt mu.
  Let X := chi_of r v r0 v0 t mu.
  Let rad := radS r0 v0 mu X.
  Let u0 := U 0 X al. Let u1 := U 1 X al. Let u2 := U 2 X al. Let u3 := U 3 X al. Let u4 := U 4 X al. Let u5 := U 5 X al.
  Let d0 := - X * u1 / 2.
  Let d1 := (u3 - X * u2) / 2.
  Let d2 := (2 * u4 - X * u3) / 2.
  Let d3 := (3 * u5 - X * u4) / 2.
  Let TT := n * d1 + sg * d2 + d3.
  Let F := FS r0 v0 mu X. Let G := GS r0 v0 mu X. Let Ft := FtS r0 v0 mu X. Let Gt := GtS r0 v0 mu X.
  Definition fF := xF n sg u0 u1 u2 TT d2.
  Definition fG := xG n sg u0 u1 u2 TT d1 d2.
  Definition fFt := xFt n sg al u0 u1 u2 TT d0 d1 d2.
  Definition fGt := xGt n sg al u0 u1 u2 TT d0 d1 d2.
  Let Phi := dxdx0 r v r0 v0 t mu.
  Definition va (x : vec) := dot r0 x / n.
  Definition vb (x y : vec) := dot v0 x / m + dot r0 y / m.
  Definition vc (x y : vec) := - 2 * dot r0 x / n ^ 3 - 2 * (dot v0 y / mu).

  Lemma n_pos' : 0 < n. Proof. apply vnorm_pos, (Hr0 r0 v0 Hh). Qed.
  Lemma m_pos' : 0 < m. Proof. now apply sqrt_lt_R0. Qed.
  Lemma rad_pos'' : 0 < rad. Proof. apply radS_pos; auto. apply (Hr0 r0 v0 Hh). Qed.
  Lemma rho_eq' : vnorm r = rad.
  Proof.
    destruct (flow_chi mu t r0 v0 r v Hmu Hh Hf) as [_ [E _]]. rewrite E. apply pos_norm; auto. apply (Hr0 r0 v0 Hh).
  Qed.

  Section XY.
  Variables (x y : vec).
  Lemma act_pos : vplus (row_col (b_rr Phi) x) (row_col (b_rv Phi) y)
    = vplus (vplus (smul (fF (va x) (vb x y) (vc x y)) r0) (smul F x))
            (vplus (smul (fG (va x) (vb x y) (vc x y) / m) v0) (smul G y)).
  Proof.
    destruct (flow_chi mu t r0 v0 r v Hmu Hh Hf) as [E1 [E2 E3]]. fold X in E1, E2, E3.
    pose proof n_pos' as Pn. pose proof m_pos' as Pm. pose proof rad_pos'' as Pr. pose proof rho_eq' as Er.
    assert (Nn : n <> 0) by lra. assert (Nr : rad <> 0) by lra. assert (Nm : m <> 0) by lra.
    assert (Mm : mu = m * m) by (symmetry; apply sqrt_sqrt; lra).
    unfold Phi. rewrite (dxdx0_S mu t r0 v0 r v Hmu Hh Hf). cbn [b_rr b_rv].
    assert (Nmu : mu <> 0) by lra. assert (Nr' : vnorm r <> 0) by now rewrite Er.
    rewrite prpr0_act, prpv0_act by auto. rewrite Er. fold X n F G.
    assert (Eb : m * (dot v0 x / m) = dot v0 x) by (field; auto).
    assert (Ec : m * (dot r0 y / m) = dot r0 y) by (field; auto).
    assert (Ed : mu * (dot v0 y / mu) = dot v0 y) by (field; auto).
    assert (Ev : Ft * dot r0 x + (Gt - 1) * dot v0 x = dot (vminus v v0) x).
    { rewrite E3. unfold velS. fold Ft Gt. rewrite dot_minus_l, dot_plus_l, !dot_smul_l. ring. }
    assert (EC : (3 * u5 - X * u4 - timeS r0 v0 mu X * u2) / m = C_of r v r0 v0 t mu)
      by (rewrite E1; reflexivity).
    assert (K : forall rc vc' xc yc,
      fF (va x) (vb x y) (vc x y) * rc + F * xc + (fG (va x) (vb x y) (vc x y) / m * vc' + G * yc)
      = rad / mu * (dot (vminus v v0) x) * ((Ft * rc + Gt * vc') - vc') + (1 - F) * dot r0 x / n ^ 2 * (F * rc + G * vc')
        + C_of r v r0 v0 t mu / n ^ 3 * dot r0 x * (Ft * rc + Gt * vc') + F * xc
        + (n / mu * (1 - F) * (dot v0 y * ((F * rc + G * vc') - rc) - dot r0 y * ((Ft * rc + Gt * vc') - vc'))
           + C_of r v r0 v0 t mu / mu * dot v0 y * (Ft * rc + Gt * vc') + G * yc)).
    { intros rc vc' xc yc.
      pose proof (pos_glue m mu n rad u1 u2 (n * u1 + sg * u2) (3 * u5 - X * u4 - timeS r0 v0 mu X * u2)
        (dot r0 x) (dot v0 x / m) (dot r0 y / m) (dot v0 y / mu) rc vc' xc yc Nm Nn Nr Mm
        (fF (va x) (vb x y) (vc x y)) (fG (va x) (vb x y) (vc x y))
        (pos_variation n sg al X u0 u1 u2 u3 u4 u5 (U0_eq X al) (U1_eq' X al) (U4_eq X al)
         (dot r0 x) (dot v0 x / m) (dot r0 y / m) (dot v0 y / mu) Nn Nr rc (vc' / m))) as Z.
      rewrite Eb, Ec, Ed, EC in Z.
      change (- m / rad * u1 / n) with Ft in Z. change (1 - u2 / rad) with Gt in Z. rewrite Ev in Z. exact Z. }
    set (D := dot (vminus v v0) x) in *. set (CC := C_of r v r0 v0 t mu) in *. clearbody D CC.
    apply V3_eq; unfold vplus, vminus, smul; cbn [c0 c1 c2]; rewrite K; rewrite E2, E3;
      unfold posS, velS, vplus, smul; cbn [c0 c1 c2]; reflexivity.
  Qed.
  Lemma act_vel : vplus (row_col (b_vr Phi) x) (row_col (b_vv Phi) y)
    = vplus (vplus (smul (m * fFt (va x) (vb x y) (vc x y)) r0) (smul Ft x))
            (vplus (smul (fGt (va x) (vb x y) (vc x y)) v0) (smul Gt y)).
  Proof.
    destruct (flow_chi mu t r0 v0 r v Hmu Hh Hf) as [E1 [E2 E3]]. fold X in E1, E2, E3.
    pose proof n_pos' as Pn. pose proof m_pos' as Pm. pose proof rad_pos'' as Pr. pose proof rho_eq' as Er.
    assert (Nn : n <> 0) by lra. assert (Nr : rad <> 0) by lra. assert (Nm : m <> 0) by lra.
    assert (Mm : mu = m * m) by (symmetry; apply sqrt_sqrt; lra).
    unfold Phi. rewrite (dxdx0_S mu t r0 v0 r v Hmu Hh Hf). cbn [b_vr b_vv].
    assert (Nmu : mu <> 0) by lra. assert (Nr' : vnorm r <> 0) by now rewrite Er.
    rewrite pvpr0_act, pvpv0_act by auto. rewrite Er. fold X n F G Ft Gt.
    assert (Eb : m * (dot v0 x / m) = dot v0 x) by (field; auto).
    assert (Ec : m * (dot r0 y / m) = dot r0 y) by (field; auto).
    assert (Ed : mu * (dot v0 y / mu) = dot v0 y) by (field; auto).
    assert (Ev : Ft * dot r0 x + (Gt - 1) * dot v0 x = dot (vminus v v0) x).
    { rewrite E3. unfold velS. fold Ft Gt. rewrite dot_minus_l, dot_plus_l, !dot_smul_l. ring. }
    assert (EC : (3 * u5 - X * u4 - timeS r0 v0 mu X * u2) / m = C_of r v r0 v0 t mu)
      by (rewrite E1; reflexivity).
    assert (Ey : Ft * dot r0 y + (Gt - 1) * dot v0 y = dot (vminus v v0) y).
    { rewrite E3. unfold velS. fold Ft Gt. rewrite dot_minus_l, dot_plus_l, !dot_smul_l. ring. }
    assert (Ep : F * dot r0 x + G * dot v0 x = dot r x).
    { rewrite E2. unfold posS. fold F G. now rewrite dot_plus_l, !dot_smul_l. }
    assert (Es : m * sigS r0 v0 mu X = dot v r).
    { rewrite dot_comm, E2, E3. symmetry. apply pos_dot_vel; auto. apply (Hr0 r0 v0 Hh). }
    assert (K : forall rc vc' xc yc,
      m * fFt (va x) (vb x y) (vc x y) * rc + Ft * xc + (fGt (va x) (vb x y) (vc x y) * vc' + Gt * yc)
      = - (dot r0 x / n ^ 2) * ((Ft * rc + Gt * vc') - vc') - dot (vminus v v0) x / rad ^ 2 * (F * rc + G * vc')
        + Ft * (xc - dot r x / rad ^ 2 * (F * rc + G * vc')
              + dot (vminus v v0) x / (mu * rad) * (dot v r * (F * rc + G * vc') - rad ^ 2 * (Ft * rc + Gt * vc')))
        - mu / rad ^ 2 * C_of r v r0 v0 t mu / n ^ 2 * (dot r0 x / n) / rad * (F * rc + G * vc')
        + (n / mu * dot (vminus v v0) y * ((Ft * rc + Gt * vc') - vc') + (1 - F) * n / rad ^ 3 * dot r0 y * (F * rc + G * vc')
           - C_of r v r0 v0 t mu / rad ^ 3 * dot v0 y * (F * rc + G * vc') + Gt * yc)).
    { intros rc vc' xc yc.
      pose proof (vel_glue m mu n rad u1 u2 (sigS r0 v0 mu X) (n * u1 + sg * u2) (3 * u5 - X * u4 - timeS r0 v0 mu X * u2)
        (dot r0 x) (dot v0 x / m) (dot r0 y / m) (dot v0 y / mu) rc vc' xc yc Nm Nn Nr Mm
        (fFt (va x) (vb x y) (vc x y)) (fGt (va x) (vb x y) (vc x y))
        (vel_variation n sg al X u0 u1 u2 u3 u4 u5 (U0_eq X al) (U1_eq' X al) (U4_eq X al) (U_sq X al)
         (dot r0 x) (dot v0 x / m) (dot r0 y / m) (dot v0 y / mu) Nn Nr rc (vc' / m))) as Z.
      rewrite Eb, Ec, Ed, EC, Es in Z.
      change (- m / rad * u1 / n) with Ft in Z. change (1 - u2 / rad) with Gt in Z.
      change (1 - u2 / n) with F in Z. change ((n * u1 + sg * u2) / m) with G in Z. rewrite Ev, Ey, Ep in Z. exact Z. }
    set (D := dot (vminus v v0) x) in *. set (D' := dot (vminus v v0) y) in *. set (CC := C_of r v r0 v0 t mu) in *.
    set (D2 := dot r x) in *. set (D3 := dot v r) in *. clearbody D D' D2 D3 CC.
    apply V3_eq; unfold vplus, vminus, smul; cbn [c0 c1 c2]; rewrite K; rewrite E2, E3;
      unfold posS, velS, vplus, smul; cbn [c0 c1 c2]; reflexivity.
  Qed.
  End XY.

  Lemma symplectic (x1 y1 x2 y2 : vec) :
    omega (vplus (row_col (b_rr Phi) x1) (row_col (b_rv Phi) y1))
          (vplus (row_col (b_vr Phi) x1) (row_col (b_vv Phi) y1))
          (vplus (row_col (b_rr Phi) x2) (row_col (b_rv Phi) y2))
          (vplus (row_col (b_vr Phi) x2) (row_col (b_vv Phi) y2))
    = omega x1 y1 x2 y2.
  Proof.
    rewrite !act_pos, !act_vel, omega_expand.
    pose proof n_pos' as Pn. pose proof m_pos' as Pm. pose proof rad_pos'' as Pr.
    assert (Nn : n <> 0) by lra. assert (Nr : rad <> 0) by lra. assert (Nm : m <> 0) by lra.
    assert (Mm : m * m = mu) by (apply sqrt_sqrt; lra).
    pose proof (Hr0 r0 v0 Hh) as Hr.
    assert (Det : F * Gt - G * Ft = 1) by (apply det1; auto).
    rewrite Det.
    rewrite (r0_sq r0), (rv0 r0 v0 mu Hmu), (v0_sq r0 v0 mu Hmu Hr).
    fold n al m sg.
    pose proof (symp_scalar n sg al u0 u1 u2 u3 TT (U0_eq X al) (U_sq X al) Nn Nr d0 d1 d2) as S.
    assert (E0 : d0 = - (u1 + al * u3) * u1 / 2).
    { unfold d0. rewrite (U1_eq' X al) at 1. reflexivity. }
    assert (E1 : d1 = (u0 * u3 - u1 * u2) / 2).
    { unfold d1, u0. rewrite (U0_eq X al). pose proof (U1_eq' X al) as Z. fold u1 u3 in Z. rewrite Z at 1. fold u2. field. }
    assert (E2 : d2 = (u1 * u3 - u2 ^ 2) / 2).
    { unfold d2, u4. rewrite (U4_eq X al). fold u1 u2 u3. field. }
    specialize (S E0 E1 E2 (va x1) (dot v0 x1 / m) (dot r0 y1 / m) (vc x1 y1)
       (va x2) (dot v0 x2 / m) (dot r0 y2 / m) (vc x2 y2)). cbv zeta in S.
    replace (n * va x1) with (dot r0 x1) in S by (unfold va; field; auto).
    replace (n * va x2) with (dot r0 x2) in S by (unfold va; field; auto).
    replace (- (vc x1 y1 / 2 + va x1 / n ^ 2)) with (dot v0 y1 / mu) in S by (unfold vc, va; field; split; lra).
    replace (- (vc x2 y2 / 2 + va x2 / n ^ 2)) with (dot v0 y2 / mu) in S by (unfold vc, va; field; split; lra).
    fold (vb x1 y1) (vb x2 y2) in S.
    fold fF fG fFt fGt in S.
    assert (EG : n * u1 + sg * u2 = m * G) by (unfold G, GS; fold n al sg u1 u2 m; field; auto).
    assert (EFt : - u1 / (rad * n) = Ft / m) by (unfold Ft, FtS; fold n al u1 rad m; field; auto).
    change (n * u0 + sg * u1 + u2) with rad in S. rewrite EG, EFt in S.
    change (1 - u2 / n) with F in S. change (1 - u2 / rad) with Gt in S.
    revert S. rewrite <- Mm.
    generalize (fF (va x1) (vb x1 y1) (vc x1 y1)) (fF (va x2) (vb x2 y2) (vc x2 y2))
      (fG (va x1) (vb x1 y1) (vc x1 y1)) (fG (va x2) (vb x2 y2) (vc x2 y2))
      (fFt (va x1) (vb x1 y1) (vc x1 y1)) (fFt (va x2) (vb x2 y2) (vc x2 y2))
      (fGt (va x1) (vb x1 y1) (vc x1 y1)) (fGt (va x2) (vb x2 y2) (vc x2 y2)).
    intros f1 f2 g1 g2 p1 p2 q1 q2 S.
    match type of S with ?e = 0 => transitivity (omega x1 y1 x2 y2 + m * e); [|rewrite S; ring] end.
    clearbody F G Ft Gt m n sg al. clear S. field. split; lra.
  Qed.
End Act.
