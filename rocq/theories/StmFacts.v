(** * StmFacts: dxdx0 against the exact flow (proofs for C18-C20) *)
From Coq Require Import Reals Lra Lia Psatz.
From Coquelicot Require Import Coquelicot.
From Verif Require Import Num NumR Spec RLib Ana Uniformulas Lagrange OrbIntegrals KepEqu StateTrans
  SeriesU UFacts OrbFacts KepState KepMotion TwoBody KepRows StmAlg Stm.
Local Open Scope R_scope.

(** ** Matrices acting on vectors *)
Ltac rc :=
  intros; repeat match goal with
  | A : mat |- _ => destruct A as [[? ? ?] [? ? ?] [? ? ?]]
  | a : vec |- _ => destruct a as [? ? ?]
  end;
  unfold madd, msub, mscale, mneg, mdivs, outer, eye3, mmul, mcol, vinner, row_col, vadd, vsub, vscale, vneg, vdivs,
    vzip3, vmap3, dot, vplus, vminus, smul; cbn; unfold Rdiv; apply mk3_eq; ring.
Lemma rc_madd (A B : mat) (v : vec) : row_col (madd A B) v = vplus (row_col A v) (row_col B v).
Proof. rc. Qed.
Lemma rc_msub (A B : mat) (v : vec) : row_col (msub A B) v = vminus (row_col A v) (row_col B v).
Proof. rc. Qed.
Lemma rc_mscale k (A : mat) (v : vec) : row_col (mscale k A) v = smul k (row_col A v).
Proof. rc. Qed.
Lemma rc_mneg (A : mat) (v : vec) : row_col (mneg A) v = smul (-1) (row_col A v).
Proof. rc. Qed.
Lemma rc_mdivs (A : mat) k (v : vec) : row_col (mdivs A k) v = smul (/ k) (row_col A v).
Proof. rc. Qed.
Lemma rc_outer (a b v : vec) : row_col (outer a b) v = smul (dot b v) a.
Proof. rc. Qed.
Lemma rc_eye (v : vec) : row_col eye3 v = v.
Proof. rc. Qed.
Lemma rc_mmul (A B : mat) (v : vec) : row_col (mmul A B) v = row_col A (row_col B v).
Proof. rc. Qed.
Lemma rc_scale_all k (A : mat) (v : vec) :
  row_col (vmap3 (fun row => vmap3 (fun x => n_mul x k) row) A) v = smul k (row_col A v).
Proof. rc. Qed.

Lemma sq_eq (x : R) : npow x 2 = x ^ 2.
Proof. unfold npow, npow_aux, mul_opt. cbn. ring. Qed.

Lemma smul_vminus k (a b : vec) : smul k (vminus a b) = vminus (smul k a) (smul k b).
Proof. vring. Qed.

Lemma vplus_eq (a b a' b' : vec) : a = a' -> b = b' -> vplus a b = vplus a' b'.
Proof. now intros -> ->. Qed.
Lemma vminus_eq (a b a' b' : vec) : a = a' -> b = b' -> vminus a b = vminus a' b'.
Proof. now intros -> ->. Qed.
Lemma smul_eq k l (a : vec) : k = l -> smul k a = smul l a.
Proof. now intros ->. Qed.

(** ** The blocks applied to vectors *)
Section Blocks.
  Variables (r v r0 v0 z : vec) (F G Ft Gt C mu : R).
  Let n := vnorm r0.
  Let rho := vnorm r.
  Hypothesis Hmu : mu <> 0.
  Hypothesis Hn : n <> 0.
  Hypothesis Hrho : rho <> 0.
  Lemma prpr0_act : row_col (prpr0 r v r0 v0 F C mu) z =
    vplus (vplus (vplus
      (smul (rho / mu * dot (vminus v v0) z) (vminus v v0))
      (smul ((1 - F) * dot r0 z / n ^ 2) r))
      (smul (C / n ^ 3 * dot r0 z) v)) (smul F z).
  Proof.
    unfold prpr0. cbv zeta. rewrite !rc_madd, !rc_mscale, !rc_outer, rc_eye, !vsub_vminus, !vdivs_smul, sq_eq.
    change (vector_norm r0) with n; change (vector_norm r) with rho; fold n rho. rewrite !dot_smul_l, !smul_smul.
    f_equal. f_equal; [f_equal|]; f_equal; cbn. all: field; auto.
  Qed.
  Lemma prpv0_act : row_col (prpv0 r v r0 v0 F G C mu) z =
    vplus (vplus
      (smul (n / mu * (1 - F)) (vminus (smul (dot v0 z) (vminus r r0)) (smul (dot r0 z) (vminus v v0))))
      (smul (C / mu * dot v0 z) v)) (smul G z).
  Proof.
    unfold prpv0. cbv zeta. rewrite !rc_madd, !rc_mscale, rc_msub, !rc_outer, rc_eye; repeat rewrite vsub_vminus.
    change (vector_norm r0) with n; change (vector_norm r) with rho; fold n rho. rewrite !smul_smul. f_equal.
  Qed.
  Lemma pvpr0_act : row_col (pvpr0 r v r0 v0 Ft C mu) z =
    vminus (vplus (vminus
      (smul (- (dot r0 z / n ^ 2)) (vminus v v0))
      (smul (dot (vminus v v0) z / rho ^ 2) r))
      (smul Ft (vplus (vminus z (smul (dot r z / rho ^ 2) r))
         (smul (dot (vminus v v0) z / (mu * rho))
            (vminus (smul (dot v r) r) (smul (rho ^ 2) v))))))
      (smul (mu / rho ^ 2 * C / n ^ 2 * (dot r0 z / n) / rho) r).
  Proof.
    unfold pvpr0. cbv zeta.
    rewrite rc_msub, rc_madd, rc_msub, !rc_mscale, rc_mneg, rc_madd, rc_msub, rc_mmul, rc_mdivs, rc_msub, !rc_outer, rc_eye.
    change (@vsub R Num_R) with vminus. rewrite !vdivs_smul, !sq_eq.
    change (vector_norm r0) with n; change (vector_norm r) with rho; fold n rho. rewrite !dot_smul_l, !dot_smul_r, !smul_smul.
    assert (E : dot r r = rho ^ 2) by (unfold rho; now rewrite vnorm_sq2).
    rewrite E.
    apply vminus_eq; [apply vplus_eq; [apply vminus_eq|]|].
    - apply smul_eq. cbn. field. auto.
    - apply smul_eq. cbn. field. auto.
    - f_equal. apply vplus_eq.
      + apply vminus_eq; [reflexivity|]. apply smul_eq. cbn. field. auto.
      + rewrite !smul_vminus, !smul_smul. apply vminus_eq; apply smul_eq; cbn; field; auto.
    - apply smul_eq. cbn. field. auto.
  Qed.
  Lemma pvpv0_act : row_col (pvpv0 r v r0 v0 F Gt C mu) z =
    vplus (vminus (vplus
      (smul (n / mu * dot (vminus v v0) z) (vminus v v0))
      (smul ((1 - F) * n / rho ^ 3 * dot r0 z) r))
      (smul (C / rho ^ 3 * dot v0 z) r)) (smul Gt z).
  Proof.
    unfold pvpv0. cbv zeta.
    rewrite !rc_madd, rc_msub, !rc_madd, rc_mdivs, rc_scale_all, !rc_mscale, !rc_outer, rc_eye.
    change (@vsub R Num_R) with vminus. rewrite !vdivs_smul, sq_eq.
    change (vector_norm r0) with n; change (vector_norm r) with rho; fold n rho. rewrite !dot_smul_l, !smul_smul.
    f_equal. f_equal; [f_equal|]; f_equal; cbn; field; auto.
  Qed.
End Blocks.

(** ** The anomaly of an end state *)
Definition chi_of (r v r0 v0 : vec) (t mu : R) : R :=
  alphaS r0 v0 mu * sqrt mu * t + sigmaS r v mu - sigmaS r0 v0 mu.

Lemma flow_chi mu t r0 v0 r v : 0 < mu -> cross r0 v0 <> vzero -> flows_to mu t (r0, v0) (r, v) ->
  timeS r0 v0 mu (chi_of r v r0 v0 t mu) = sqrt mu * t /\
  r = posS r0 v0 mu (chi_of r v r0 v0 t mu) /\ v = velS r0 v0 mu (chi_of r v r0 v0 t mu).
Proof.
  intros Hmu Hh Hf. pose proof (Hr0 r0 v0 Hh) as Hr.
  set (c := chiS r0 v0 mu Hmu Hh t).
  assert (Ec : timeS r0 v0 mu c = sqrt mu * t) by apply chiS_spec.
  pose proof (flow_state mu t c r0 v0 Hmu Hh Ec) as F.
  pose proof (flow_det mu t (r0, v0) _ _ Hmu Hh Hf F) as X. apply pair_equal_spec in X. destruct X as [-> ->].
  replace (chi_of (posS r0 v0 mu c) (velS r0 v0 mu c) r0 v0 t mu) with c; auto.
  unfold chi_of. rewrite sigma_at by auto.
  pose proof (chi_recovered r0 v0 mu c t) as R. rewrite Ec, generalized_anomaly_R in R. rewrite R. ring.
Qed.

Definition C_of (r v r0 v0 : vec) (t mu : R) : R :=
  let c := chi_of r v r0 v0 t mu in let al := alphaS r0 v0 mu in
  (3 * U 5 c al - c * U 4 c al - sqrt mu * t * U 2 c al) / sqrt mu.

Lemma dxdx0_S mu t r0 v0 r v : 0 < mu -> cross r0 v0 <> vzero -> flows_to mu t (r0, v0) (r, v) ->
  let c := chi_of r v r0 v0 t mu in let C := C_of r v r0 v0 t mu in
  dxdx0 r v r0 v0 t mu
  = mkM6 (prpr0 r v r0 v0 (FS r0 v0 mu c) C mu) (prpv0 r v r0 v0 (FS r0 v0 mu c) (GS r0 v0 mu c) C mu)
         (pvpr0 r v r0 v0 (FtS r0 v0 mu c) C mu) (pvpv0 r v r0 v0 (FS r0 v0 mu c) (GtS r0 v0 mu c) C mu).
Proof.
  intros Hmu Hh Hf. cbv zeta. destruct (flow_chi mu t r0 v0 r v Hmu Hh Hf) as [E1 [E2 E3]].
  assert (Hrad : vnorm r = radS r0 v0 mu (chi_of r v r0 v0 t mu)).
  { rewrite E2 at 1. apply pos_norm; auto. apply (Hr0 r0 v0 Hh). }
  unfold dxdx0. cbv zeta. change (@vector_norm R Num_R) with vnorm.
  rewrite alpha_of_S, !ufunc1_U, !ufunc2_U, !ufunc4_U, !ufunc5_U, generalized_anomaly_R.
  change (alphaS r0 v0 mu * sqrt mu * t + sigma_fn r v mu - sigma_fn r0 v0 mu) with (chi_of r v r0 v0 t mu).
  unfold FtS, GtS. rewrite <- Hrad. reflexivity.
Qed.

(** ** C18 *)
Lemma stm_derivative mu t (s : R) (r0 v0 r v : R -> vec) (dr dv : vec) :
  0 < mu -> cross (r0 s) (v0 s) <> vzero -> vderive r0 s dr -> vderive v0 s dv ->
  locally s (fun u => flows_to mu t (r0 u, v0 u) (r u, v u)) ->
  let Phi := dxdx0 (r s) (v s) (r0 s) (v0 s) t mu in
  vderive r s (vplus (row_col (b_rr Phi) dr) (row_col (b_rv Phi) dv)) /\
  vderive v s (vplus (row_col (b_vr Phi) dr) (row_col (b_vv Phi) dv)).
Proof.
  intros Hmu Hh Dr Dv HL.
  pose proof (locally_singleton s _ HL) as Hs. cbv beta in Hs.
  set (chi := fun u => chi_of (r u) (v u) (r0 u) (v0 u) t mu).
  assert (L : locally s (fun u => timeS (r0 u) (v0 u) mu (chi u) = sqrt mu * t
     /\ posS (r0 u) (v0 u) mu (chi u) = r u /\ velS (r0 u) (v0 u) mu (chi u) = v u)).
  { generalize (filter_and _ _ (near r0 v0 s mu dr dv Hmu Hh Dr Dv) HL). apply filter_imp.
    intros u [[Hu _] Hf]. destruct (flow_chi mu t _ _ _ _ Hmu Hu Hf) as [A [B C]]. auto. }
  assert (L1 : locally s (fun u => timeS (r0 u) (v0 u) mu (chi u) = sqrt mu * t)) by (revert L; apply filter_imp; tauto).
  pose proof (end_pos r0 v0 s mu dr dv Hmu Hh Dr Dv t chi L1) as EP.
  pose proof (end_vel r0 v0 s mu dr dv Hmu Hh Dr Dv t chi L1) as EV.
  destruct (flow_chi mu t _ _ _ _ Hmu Hh Hs) as [E1 [E2 E3]].
  pose proof (Hr0 _ _ Hh) as Hr.
  assert (Hrad : vnorm (r s) = radS (r0 s) (v0 s) mu (chi s)).
  { rewrite E2 at 1. now apply pos_norm. }
  assert (N0 : vnorm (r0 s) <> 0) by now apply vnorm_neq.
  assert (N1 : vnorm (r s) <> 0) by (rewrite Hrad; apply radS_neq; auto).
  assert (Nm : mu <> 0) by lra.
  cbv zeta. rewrite (dxdx0_S mu t _ _ _ _ Hmu Hh Hs). cbn [b_rr b_rv b_vr b_vv].
  rewrite prpr0_act, prpv0_act, pvpr0_act, pvpv0_act by auto.
  assert (EVx : forall (f g : R -> vec) l, locally s (fun u => f u = g u) -> vderive f s l -> vderive g s l).
  { intros f g l Hfg [A [B C]].
    split; [|split]; [apply (der_ev (fun u => c0 (f u)))|apply (der_ev (fun u => c1 (f u)))|apply (der_ev (fun u => c2 (f u)))]; auto;
      (revert Hfg; apply filter_imp; intros u ->; reflexivity). }
  split.
  - apply (EVx (fun u => posS (r0 u) (v0 u) mu (chi u))); [revert L; apply filter_imp; tauto|].
    eapply vd_eq; [exact EP|]. unfold rrS, rvS. change (chi_of (r s) (v s) (r0 s) (v0 s) t mu) with (chi s) in *.
    rewrite <- E2, <- E3, <- Hrad. reflexivity.
  - apply (EVx (fun u => velS (r0 u) (v0 u) mu (chi u))); [revert L; apply filter_imp; tauto|].
    eapply vd_eq; [exact EV|]. unfold vrS, vvS. change (chi_of (r s) (v s) (r0 s) (v0 s) t mu) with (chi s) in *.
    rewrite <- E2, <- E3, <- Hrad. reflexivity.
Qed.
