(** * StmMore: identity, flow field, chain rule and symplectic property of dxdx0 (proofs for C19, C20) *)
From Coq Require Import Reals Lra Lia Psatz.
From Coquelicot Require Import Coquelicot.
From Verif Require Import Num NumR Spec RLib Ana Uniformulas Lagrange OrbIntegrals KepEqu StateTrans
  SeriesU UFacts OrbFacts KepState KepMotion TwoBody KepRows StmAlg Stm StmFacts StmSym.
Local Open Scope R_scope.

(** ** Matrices are determined by their action *)
Lemma mat_ext (A B : mat) : (forall z, row_col A z = row_col B z) -> A = B.
Proof.
  intros H.
  pose proof (H (mk3 1 0 0)) as H1. pose proof (H (mk3 0 1 0)) as H2. pose proof (H (mk3 0 0 1)) as H3.
  destruct A as [[? ? ?] [? ? ?] [? ? ?]], B as [[? ? ?] [? ? ?] [? ? ?]].
  unfold row_col, dot in H1, H2, H3. cbn in H1, H2, H3. injection H1. injection H2. injection H3. intros.
  repeat apply mk3_eq; lra.
Qed.
Definition zeromat : mat := mk3 vzero vzero vzero.
Lemma rc_zero z : row_col zeromat z = vzero.
Proof. unfold row_col, zeromat, vzero, dot. cbn. apply mk3_eq; ring. Qed.
Lemma rc_ident z : row_col ident z = z.
Proof. destruct z. unfold row_col, ident, dot. cbn. apply mk3_eq; ring. Qed.
Lemma vminus_self (a : vec) : vminus a a = vzero.
Proof. vring. Qed.
Lemma dot_vzero_l (a : vec) : dot vzero a = 0.
Proof. vring. Qed.
Lemma smul_vzero k : smul k vzero = vzero.
Proof. vring. Qed.
Lemma smul_0 (a : vec) : smul 0 a = vzero.
Proof. vring. Qed.
Lemma vplus_0_l (a : vec) : vplus vzero a = a.
Proof. vring. Qed.
Lemma vplus_0_r (a : vec) : vplus a vzero = a.
Proof. vring. Qed.
Lemma vminus_0_r (a : vec) : vminus a vzero = a.
Proof. vring. Qed.

(** ** C19, first part *)
Lemma stm_identity r0 v0 mu : 0 < mu -> r0 <> vzero ->
  dxdx0 r0 v0 r0 v0 0 mu = mkM6 ident zeromat zeromat ident.
Proof.
  intros Hmu Hr. pose proof (vnorm_neq r0) as N. destruct N as [N _]. specialize (N Hr).
  pose proof (sqrt_pos_neq mu Hmu) as Q. assert (Nm : mu <> 0) by lra.
  unfold dxdx0. cbv zeta. change (@vector_norm R Num_R) with vnorm.
  rewrite alpha_of_S, !ufunc1_U, !ufunc2_U, !ufunc4_U, !ufunc5_U, generalized_anomaly_R.
  set (al := alphaS r0 v0 mu).
  replace (al * sqrt mu * 0 + sigma_fn r0 v0 mu - sigma_fn r0 v0 mu) with 0 by ring.
  rewrite !U_zero. simpl Nat.eqb. cbv iota.
  rewrite ?lagrange_F_R, ?lagrange_G_R, ?lagrange_Ft_R, ?lagrange_Gt_R.
  replace (C_func 0 0 0 0 0 mu) with 0 by (unfold C_func; cbn; field; auto).
  replace (1 - 0 / vnorm r0) with 1 by (field; auto).
  replace ((vnorm r0 * 0 + sigma_fn r0 v0 mu * 0) / sqrt mu) with 0 by (field; auto).
  replace (- sqrt mu / vnorm r0 * 0 / vnorm r0) with 0 by (field; auto).
  f_equal; apply mat_ext; intros z;
    [rewrite prpr0_act, rc_ident by auto|rewrite prpv0_act, rc_zero by auto
    |rewrite pvpr0_act, rc_zero by auto|rewrite pvpv0_act, rc_ident by auto];
    rewrite ?vminus_self, ?dot_vzero_l, ?smul_vzero.
  - replace ((1 - 1) * dot r0 z / vnorm r0 ^ 2) with 0 by (field; auto).
    replace (0 / vnorm r0 ^ 3 * dot r0 z) with 0 by (field; auto).
    now rewrite !smul_0, !vplus_0_l, smul_1.
  - replace (0 / mu * dot v0 z) with 0 by (field; auto).
    now rewrite !smul_0, ?vminus_self, ?smul_vzero, !vplus_0_l.
  - replace (mu / vnorm r0 ^ 2 * 0 / vnorm r0 ^ 2 * (dot r0 z / vnorm r0) / vnorm r0) with 0 by (field; auto).
    replace (0 / vnorm r0 ^ 2) with 0 by (field; auto).
    now rewrite !smul_0, !vminus_self, vplus_0_l, vminus_self.
  - replace ((1 - 1) * vnorm r0 / vnorm r0 ^ 3 * dot r0 z) with 0 by (field; auto).
    replace (0 / vnorm r0 ^ 3 * dot v0 z) with 0 by (field; auto).
    now rewrite !smul_0, !vplus_0_l, vminus_self, vplus_0_l, smul_1.
Qed.

(** ** C19, second part: the flow field *)
Lemma vd_uniq (f : R -> vec) (t : R) (a b : vec) : vderive f t a -> vderive f t b -> a = b.
Proof.
  intros [A0 [A1 A2]] [B0 [B1 B2]]. apply V3_eq; eapply der_uniq; eauto.
Qed.
Lemma vd_shift (f : R -> vec) (t : R) (a : vec) : vderive f t a -> vderive (fun u => f (t + u)) 0 a.
Proof.
  intros [A0 [A1 A2]].
  assert (D : is_derive (fun u : R => t + u) 0 1).
  { eapply der_eq; [apply der_plus; [apply der_const|apply der_id]|ring]. }
  assert (E : forall (g : R -> R) (y : R), is_derive g t y -> is_derive (fun u => g (t + u)) 0 y).
  { intros g y Hg. eapply der_eq; [apply (der_comp g (fun u => t + u)); [rewrite Rplus_0_r; exact Hg|exact D]|ring]. }
  split; [|split]; apply (E (fun x => _ (f x))); assumption.
Qed.

Lemma stm_flow_field mu t r0 v0 r v : 0 < mu -> cross r0 v0 <> vzero -> flows_to mu t (r0, v0) (r, v) ->
  let Phi := dxdx0 r v r0 v0 t mu in
  vplus (row_col (b_rr Phi) v0) (row_col (b_rv Phi) (gravity mu r0)) = v /\
  vplus (row_col (b_vr Phi) v0) (row_col (b_vv Phi) (gravity mu r0)) = gravity mu r.
Proof.
  intros Hmu Hh [x [y [M [E1 E2]]]]. apply pair_equal_spec in E1, E2. destruct E1 as [X0 Y0], E2 as [Xt Yt].
  pose proof (M 0) as [_ [D1 D2]]. pose proof (M t) as [_ [D3 D4]].
  assert (HL : locally 0 (fun u => flows_to mu t (x u, y u) (x (t + u), y (t + u)))).
  { apply filter_forall. intros u. exists (fun s => x (u + s)), (fun s => y (u + s)).
    split; [now apply shift_motion|]. rewrite Rplus_0_r, (Rplus_comm t u). auto. }
  assert (Hh0 : cross (x 0) (y 0) <> vzero) by now rewrite X0, Y0.
  pose proof (stm_derivative mu t 0 x y (fun u => x (t + u)) (fun u => y (t + u)) (y 0) (gravity mu (x 0))
    Hmu Hh0 D1 D2 HL) as Z. cbv beta zeta in Z. rewrite Rplus_0_r, X0, Y0, Xt, Yt in Z. destruct Z as [Z1 Z2].
  rewrite Yt in D3. rewrite Xt in D4. cbv zeta. split.
  - exact (vd_uniq _ _ _ _ Z1 (vd_shift x t v D3)).
  - exact (vd_uniq _ _ _ _ Z2 (vd_shift y t _ D4)).
Qed.

(** ** The flow as a total function, for chain rule and inverse *)
Lemma vec_dec (a b : vec) : {a = b} + {a <> b}.
Proof.
  destruct a as [a0 a1 a2], b as [b0 b1 b2].
  destruct (Req_EM_T a0 b0) as [->|N]; [|right; intros E; injection E; auto].
  destruct (Req_EM_T a1 b1) as [->|N]; [|right; intros E; injection E; auto].
  destruct (Req_EM_T a2 b2) as [->|N]; [now left|right; intros E; injection E; auto].
Defined.
Definition flow (mu t : R) (Hmu : 0 < mu) (x : vec * vec) : vec * vec :=
  match vec_dec (cross (fst x) (snd x)) vzero with
  | left _ => x
  | right Hh => (rM (fst x) (snd x) mu Hmu Hh t, vM (fst x) (snd x) mu Hmu Hh t)
  end.
Lemma flow_spec mu t (Hmu : 0 < mu) x : cross (fst x) (snd x) <> vzero -> flows_to mu t x (flow mu t Hmu x).
Proof.
  intros Hh. unfold flow. destruct (vec_dec _ _) as [E|H]; [contradiction|]. destruct x as [r0 v0]. cbn [fst snd] in *.
  exists (rM r0 v0 mu Hmu H), (vM r0 v0 mu Hmu H). destruct (motion_start r0 v0 mu Hmu H) as [A B].
  split; [apply motion|]. now rewrite A, B.
Qed.

Definition line (a da : vec) (u : R) : vec := vplus a (smul u da).
Lemma line_der a da (s : R) : vderive (line a da) s da.
Proof.
  unfold line, vplus, smul. split; [|split]; cbn [c0 c1 c2];
    (eapply der_eq; [apply der_plus; [apply der_const|apply der_scal_r, der_id]|ring]).
Qed.
Lemma line_0 a da : line a da 0 = a.
Proof. unfold line. vring. Qed.

(** Straight lines of initial states stay non-rectilinear for a while. *)
Lemma line_flow mu t (Hmu : 0 < mu) r0 v0 dr dv : cross r0 v0 <> vzero ->
  locally 0 (fun u => cross (line r0 dr u) (line v0 dv u) <> vzero /\
    flows_to mu t (line r0 dr u, line v0 dv u)
    (fst (flow mu t Hmu (line r0 dr u, line v0 dv u)), snd (flow mu t Hmu (line r0 dr u, line v0 dv u)))).
Proof.
  intros Hh.
  assert (H0 : cross (line r0 dr 0) (line v0 dv 0) <> vzero) by now rewrite !line_0.
  generalize (near (line r0 dr) (line v0 dv) 0 mu dr dv Hmu H0 (line_der _ _ _) (line_der _ _ _)).
  apply filter_imp. intros u [Hu _]. split; [exact Hu|]. rewrite <- surjective_pairing. now apply flow_spec.
Qed.

(** Chain rule along composed motions. *)
Lemma stm_chain mu t1 t2 r0 v0 r1 v1 r2 v2 : 0 < mu -> cross r0 v0 <> vzero ->
  flows_to mu t1 (r0, v0) (r1, v1) -> flows_to mu t2 (r1, v1) (r2, v2) ->
  let P1 := dxdx0 r1 v1 r0 v0 t1 mu in let P2 := dxdx0 r2 v2 r1 v1 t2 mu in
  let P := dxdx0 r2 v2 r0 v0 (t1 + t2) mu in
  forall dr dv,
  let dr1 := vplus (row_col (b_rr P1) dr) (row_col (b_rv P1) dv) in
  let dv1 := vplus (row_col (b_vr P1) dr) (row_col (b_vv P1) dv) in
  vplus (row_col (b_rr P) dr) (row_col (b_rv P) dv) = vplus (row_col (b_rr P2) dr1) (row_col (b_rv P2) dv1) /\
  vplus (row_col (b_vr P) dr) (row_col (b_vv P) dv) = vplus (row_col (b_vr P2) dr1) (row_col (b_vv P2) dv1).
Proof.
  intros Hmu Hh F1 F2 P1 P2 P dr dv dr1 dv1.
  set (x0 := line r0 dr). set (y0 := line v0 dv).
  assert (Hh0 : cross (x0 0) (y0 0) <> vzero) by (unfold x0, y0; now rewrite !line_0).
  set (s1 := fun u => flow mu t1 Hmu (x0 u, y0 u)).
  set (s2 := fun u => flow mu t2 Hmu (s1 u)).
  assert (L : locally 0 (fun u => cross (x0 u) (y0 u) <> vzero)).
  { generalize (line_flow mu t1 Hmu r0 v0 dr dv Hh). apply filter_imp. now intros u [A _]. }
  assert (K1 : forall u, cross (x0 u) (y0 u) <> vzero -> flows_to mu t1 (x0 u, y0 u) (fst (s1 u), snd (s1 u))).
  { intros u Hu. rewrite <- surjective_pairing. now apply flow_spec. }
  assert (KH : forall u, cross (x0 u) (y0 u) <> vzero -> cross (fst (s1 u)) (snd (s1 u)) <> vzero).
  { intros u Hu. destruct (K1 u Hu) as [a [b [M [E G]]]]. apply pair_equal_spec in E, G. destruct E as [Ea Eb], G as [Ga Gb].
    rewrite <- Ga, <- Gb, (motion_h mu a b t1 M), Ea, Eb. exact Hu. }
  assert (K2 : forall u, cross (x0 u) (y0 u) <> vzero ->
    flows_to mu t2 (fst (s1 u), snd (s1 u)) (fst (s2 u), snd (s2 u))).
  { intros u Hu. rewrite <- !surjective_pairing. apply flow_spec. now apply KH. }
  assert (E0 : (x0 0, y0 0) = (r0, v0)) by (unfold x0, y0; now rewrite !line_0).
  assert (E1 : s1 0 = (r1, v1)).
  { symmetry. apply (flow_det mu t1 (r0, v0) _ _ Hmu Hh F1). rewrite <- E0. unfold s1. now apply flow_spec. }
  assert (Hh1 : cross r1 v1 <> vzero). { pose proof (KH 0 Hh0) as Z. now rewrite E1 in Z. }
  assert (E2 : s2 0 = (r2, v2)).
  { symmetry. apply (flow_det mu t2 (r1, v1) _ _ Hmu Hh1 F2). unfold s2. rewrite E1. now apply flow_spec. }
  pose proof (stm_derivative mu t1 0 x0 y0 (fun u => fst (s1 u)) (fun u => snd (s1 u)) dr dv Hmu Hh0
    (line_der _ _ _) (line_der _ _ _)) as Z1. cbv zeta in Z1.
  destruct Z1 as [A1 B1]; [revert L; apply filter_imp; exact K1|].
  rewrite E1 in A1, B1. cbn [fst snd] in A1, B1.
  replace (x0 0) with r0 in A1, B1 by (unfold x0; now rewrite line_0).
  replace (y0 0) with v0 in A1, B1 by (unfold y0; now rewrite line_0).
  fold P1 in A1, B1. fold dr1 in A1. fold dv1 in B1.
  pose proof (stm_derivative mu t2 0 (fun u => fst (s1 u)) (fun u => snd (s1 u)) (fun u => fst (s2 u)) (fun u => snd (s2 u))
    dr1 dv1 Hmu (KH 0 Hh0) A1 B1) as Z2. cbv zeta in Z2.
  destruct Z2 as [A2 B2]; [revert L; apply filter_imp; exact K2|].
  pose proof (stm_derivative mu (t1 + t2) 0 x0 y0 (fun u => fst (s2 u)) (fun u => snd (s2 u)) dr dv Hmu Hh0
    (line_der _ _ _) (line_der _ _ _)) as Z3. cbv zeta in Z3.
  destruct Z3 as [A3 B3].
  { revert L. apply filter_imp. intros u Hu.
    exact (flow_compose mu t1 t2 (x0 u, y0 u) _ _ Hmu Hu (K1 u Hu) (K2 u Hu)). }
  rewrite E1, E2 in A2, B2. rewrite E2 in A3, B3. cbn [fst snd] in A2, B2, A3, B3.
  replace (x0 0) with r0 in A3, B3 by (unfold x0; now rewrite line_0).
  replace (y0 0) with v0 in A3, B3 by (unfold y0; now rewrite line_0).
  split; [exact (vd_uniq _ _ _ _ A3 A2)|exact (vd_uniq _ _ _ _ B3 B2)].
Qed.

(** The reversed motion gives the inverse matrix. *)
Lemma stm_inverse mu t r0 v0 r v : 0 < mu -> cross r0 v0 <> vzero -> flows_to mu t (r0, v0) (r, v) ->
  let P := dxdx0 r v r0 v0 t mu in let Q := dxdx0 r0 v0 r v (- t) mu in
  forall dr dv,
  let dr1 := vplus (row_col (b_rr P) dr) (row_col (b_rv P) dv) in
  let dv1 := vplus (row_col (b_vr P) dr) (row_col (b_vv P) dv) in
  vplus (row_col (b_rr Q) dr1) (row_col (b_rv Q) dv1) = dr /\
  vplus (row_col (b_vr Q) dr1) (row_col (b_vv Q) dv1) = dv.
Proof.
  intros Hmu Hh F P Q dr dv dr1 dv1.
  pose proof (stm_chain mu t (- t) r0 v0 r v r0 v0 Hmu Hh F (flow_reverse _ _ _ _ F)) as Z. cbv zeta in Z.
  specialize (Z dr dv). destruct Z as [A B]. rewrite Rplus_opp_r in A, B.
  rewrite (stm_identity r0 v0 mu Hmu (Hr0 r0 v0 Hh)) in A, B. cbn [b_rr b_rv b_vr b_vv] in A, B.
  rewrite rc_ident, rc_zero, vplus_0_r in A. rewrite rc_ident, rc_zero, vplus_0_l in B.
  split; symmetry; assumption.
Qed.
