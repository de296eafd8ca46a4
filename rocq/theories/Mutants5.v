(** * Mutants5: wrong state transition matrices, and the properties that are false of them (see [Mutants])

    All are tried on the circular orbits of radius near 4 after a quarter turn: the right and the wrong
    matrix would have to send the same variation to the same result. *)
From Coq Require Import Reals Lra Lia Psatz ZArith.
From Coquelicot Require Import Coquelicot.
From Verif Require Import Num NumR Spec RLib Ana OrbIntegrals Uniformulas Lagrange KepEqu StateTrans UFacts OrbFacts KepState KepMotion TwoBody
  Stm StmFacts StmMore StmSymp StmExamples Mutants.

Section Wrong.
  Context {T : Type} {N : Num T}.
  Local Open Scope num_scope.
  Definition m052_C_func (chi U2 U4 U5 deltat mu : T) : T :=
    (#3 * U5 - chi * U4 + n_sqrt mu * deltat * U2) / n_sqrt mu.
  Definition m052_dxdx0 (r_vec v_vec r0_vec v0_vec : V3 T) (deltat mu : T) : M6 :=
    let r0_mag := vector_norm r0_vec in
    let r_mag := vector_norm r_vec in
    let alpha := alpha_of r0_mag (vector_norm v0_vec) mu in
    let chi := generalized_anomaly alpha (sigma_fn r_vec v_vec mu)
                 (sigma_fn r0_vec v0_vec mu) deltat mu in
    let C := m052_C_func chi (ufunc2 chi alpha) (ufunc4 chi alpha) (ufunc5 chi alpha)
               deltat mu in
    let F := lagrange_F (ufunc2 chi alpha) r0_mag in
    let G := lagrange_G (ufunc1 chi alpha) (ufunc2 chi alpha)
               (sigma_fn r0_vec v0_vec mu) r0_mag mu in
    let Ft := lagrange_Ft (ufunc1 chi alpha) r_mag r0_mag mu in
    let Gt := lagrange_Gt (ufunc2 chi alpha) r_mag in
    mkM6 (prpr0 r_vec v_vec r0_vec v0_vec F C mu)
         (prpv0 r_vec v_vec r0_vec v0_vec F G C mu)
         (pvpr0 r_vec v_vec r0_vec v0_vec Ft C mu)
         (pvpv0 r_vec v_vec r0_vec v0_vec F Gt C mu).
  Definition m053_prpr0 (r_vec v_vec r0_vec v0_vec : V3 T) (F C mu : T) : M3 T :=
    let r0_mag := vector_norm r0_vec in
    madd (madd (madd
      (mscale (vector_norm r_vec / mu) (outer (vsub v_vec v0_vec) (vsub v_vec v0_vec)))
      (mscale (#1 - F) (outer (vdivs r_vec r0_mag) (vdivs r0_vec r0_mag))))
      (mscale (C / r0_mag ** 3) (outer v_vec (vdivs r0_vec r0_mag))))
      (mscale F eye3).
  Definition m053_dxdx0 (r_vec v_vec r0_vec v0_vec : V3 T) (deltat mu : T) : M6 :=
    let r0_mag := vector_norm r0_vec in
    let r_mag := vector_norm r_vec in
    let alpha := alpha_of r0_mag (vector_norm v0_vec) mu in
    let chi := generalized_anomaly alpha (sigma_fn r_vec v_vec mu)
                 (sigma_fn r0_vec v0_vec mu) deltat mu in
    let C := C_func chi (ufunc2 chi alpha) (ufunc4 chi alpha) (ufunc5 chi alpha)
               deltat mu in
    let F := lagrange_F (ufunc2 chi alpha) r0_mag in
    let G := lagrange_G (ufunc1 chi alpha) (ufunc2 chi alpha)
               (sigma_fn r0_vec v0_vec mu) r0_mag mu in
    let Ft := lagrange_Ft (ufunc1 chi alpha) r_mag r0_mag mu in
    let Gt := lagrange_Gt (ufunc2 chi alpha) r_mag in
    mkM6 (m053_prpr0 r_vec v_vec r0_vec v0_vec F C mu)
         (prpv0 r_vec v_vec r0_vec v0_vec F G C mu)
         (pvpr0 r_vec v_vec r0_vec v0_vec Ft C mu)
         (pvpv0 r_vec v_vec r0_vec v0_vec F Gt C mu).
  Definition m054_prpv0 (r_vec v_vec r0_vec v0_vec : V3 T) (F G C mu : T) : M3 T :=
    madd (madd
      (mscale (vector_norm r0_vec / mu * (#1 - F))
         (msub (outer (vsub r_vec r0_vec) v_vec) (outer (vsub v_vec v0_vec) r0_vec)))
      (mscale (C / mu) (outer v_vec v0_vec)))
      (mscale G eye3).
  Definition m054_dxdx0 (r_vec v_vec r0_vec v0_vec : V3 T) (deltat mu : T) : M6 :=
    let r0_mag := vector_norm r0_vec in
    let r_mag := vector_norm r_vec in
    let alpha := alpha_of r0_mag (vector_norm v0_vec) mu in
    let chi := generalized_anomaly alpha (sigma_fn r_vec v_vec mu)
                 (sigma_fn r0_vec v0_vec mu) deltat mu in
    let C := C_func chi (ufunc2 chi alpha) (ufunc4 chi alpha) (ufunc5 chi alpha)
               deltat mu in
    let F := lagrange_F (ufunc2 chi alpha) r0_mag in
    let G := lagrange_G (ufunc1 chi alpha) (ufunc2 chi alpha)
               (sigma_fn r0_vec v0_vec mu) r0_mag mu in
    let Ft := lagrange_Ft (ufunc1 chi alpha) r_mag r0_mag mu in
    let Gt := lagrange_Gt (ufunc2 chi alpha) r_mag in
    mkM6 (prpr0 r_vec v_vec r0_vec v0_vec F C mu)
         (m054_prpv0 r_vec v_vec r0_vec v0_vec F G C mu)
         (pvpr0 r_vec v_vec r0_vec v0_vec Ft C mu)
         (pvpv0 r_vec v_vec r0_vec v0_vec F Gt C mu).
  Definition m055_pvpr0 (r_vec v_vec r0_vec v0_vec : V3 T) (Ft C mu : T) : M3 T :=
    let r0_mag := vector_norm r0_vec in
    let r_mag := vector_norm r_vec in
    msub (madd (msub
      (mneg (outer (vsub v_vec v0_vec) (vdivs r0_vec (r0_mag ** 2))))
      (outer (vdivs r_vec (r_mag ** 2)) (vsub v_vec v0_vec)))
      (mscale Ft
        (madd (msub eye3 (outer (vdivs r_vec r_mag) (vdivs r_vec r_mag)))
              (mmul (mdivs (msub (outer v_vec r_vec) (outer r_vec v_vec)) mu)
                    (outer (vdivs r_vec r_mag) (vsub v_vec v0_vec))))))
      (mscale (mu / r_mag ** 2 * C / r0_mag ** 2)
         (outer (vdivs r_vec r_mag) (vdivs r0_vec r0_mag))).
  Definition m055_dxdx0 (r_vec v_vec r0_vec v0_vec : V3 T) (deltat mu : T) : M6 :=
    let r0_mag := vector_norm r0_vec in
    let r_mag := vector_norm r_vec in
    let alpha := alpha_of r0_mag (vector_norm v0_vec) mu in
    let chi := generalized_anomaly alpha (sigma_fn r_vec v_vec mu)
                 (sigma_fn r0_vec v0_vec mu) deltat mu in
    let C := C_func chi (ufunc2 chi alpha) (ufunc4 chi alpha) (ufunc5 chi alpha)
               deltat mu in
    let F := lagrange_F (ufunc2 chi alpha) r0_mag in
    let G := lagrange_G (ufunc1 chi alpha) (ufunc2 chi alpha)
               (sigma_fn r0_vec v0_vec mu) r0_mag mu in
    let Ft := lagrange_Ft (ufunc1 chi alpha) r_mag r0_mag mu in
    let Gt := lagrange_Gt (ufunc2 chi alpha) r_mag in
    mkM6 (prpr0 r_vec v_vec r0_vec v0_vec F C mu)
         (prpv0 r_vec v_vec r0_vec v0_vec F G C mu)
         (m055_pvpr0 r_vec v_vec r0_vec v0_vec Ft C mu)
         (pvpv0 r_vec v_vec r0_vec v0_vec F Gt C mu).
  Definition m056_pvpv0 (r_vec v_vec r0_vec v0_vec : V3 T) (F Gt C mu : T) : M3 T :=
    let r0_mag := vector_norm r0_vec in
    let r_mag := vector_norm r_vec in
    madd (msub (madd
      (mscale (r0_mag / mu) (outer (vsub v_vec v0_vec) (vsub v_vec v0_vec)))
      (mdivs (vmap3 (fun row => vmap3 (fun x => x * r0_mag) row)
                (mscale (#1 - F) (outer (vdivs r_vec r_mag) (vdivs r0_vec r_mag)))) r_mag))
      (mscale (C / r_mag ** 3) (outer (vdivs r_vec r_mag) v0_vec)))
      (mscale Gt eye3).
  Definition m056_dxdx0 (r_vec v_vec r0_vec v0_vec : V3 T) (deltat mu : T) : M6 :=
    let r0_mag := vector_norm r0_vec in
    let r_mag := vector_norm r_vec in
    let alpha := alpha_of r0_mag (vector_norm v0_vec) mu in
    let chi := generalized_anomaly alpha (sigma_fn r_vec v_vec mu)
                 (sigma_fn r0_vec v0_vec mu) deltat mu in
    let C := C_func chi (ufunc2 chi alpha) (ufunc4 chi alpha) (ufunc5 chi alpha)
               deltat mu in
    let F := lagrange_F (ufunc2 chi alpha) r0_mag in
    let G := lagrange_G (ufunc1 chi alpha) (ufunc2 chi alpha)
               (sigma_fn r0_vec v0_vec mu) r0_mag mu in
    let Ft := lagrange_Ft (ufunc1 chi alpha) r_mag r0_mag mu in
    let Gt := lagrange_Gt (ufunc2 chi alpha) r_mag in
    mkM6 (prpr0 r_vec v_vec r0_vec v0_vec F C mu)
         (prpv0 r_vec v_vec r0_vec v0_vec F G C mu)
         (pvpr0 r_vec v_vec r0_vec v0_vec Ft C mu)
         (m056_pvpv0 r_vec v_vec r0_vec v0_vec F Gt C mu).
  Definition m057_dxdx0 (r_vec v_vec r0_vec v0_vec : V3 T) (deltat mu : T) : M6 :=
    let r0_mag := vector_norm r0_vec in
    let r_mag := vector_norm r_vec in
    let alpha := alpha_of r0_mag (vector_norm v0_vec) mu in
    let chi := generalized_anomaly alpha (sigma_fn r_vec v_vec mu)
                 (sigma_fn r0_vec v0_vec mu) deltat mu in
    let C := C_func chi (ufunc2 chi alpha) (ufunc4 chi alpha) (ufunc5 chi alpha)
               deltat mu in
    let F := lagrange_F (ufunc2 chi alpha) r0_mag in
    let G := lagrange_G (ufunc1 chi alpha) (ufunc2 chi alpha)
               (sigma_fn r0_vec v0_vec mu) r0_mag mu in
    let Ft := lagrange_Ft (ufunc1 chi alpha) r_mag r0_mag mu in
    let Gt := lagrange_Gt (ufunc2 chi alpha) r_mag in
    mkM6 (prpr0 r_vec v_vec r0_vec v0_vec F C mu)
         (pvpr0 r_vec v_vec r0_vec v0_vec Ft C mu)
         (prpv0 r_vec v_vec r0_vec v0_vec F G C mu)
         (pvpv0 r_vec v_vec r0_vec v0_vec F Gt C mu).
End Wrong.
Local Open Scope R_scope.

Definition ra := mk3 0 4 0.
Definition va := mk3 (- (1 / 2)) 0 0.
Definition rb := mk3 4 0 0.
Definition vb := mk3 0 (1 / 2) 0.
Definition da := mk3 1 0 0.
Definition db := mk3 0 (- (1 / 16)) 0.

Lemma sqrt_4 : sqrt 4 = 2. Proof. apply sqrt_is; lra. Qed.
Lemma cw_4 : cw 4 = 1 / 8. Proof. unfold cw. rewrite sqrt_4. field. Qed.
Lemma aw_der4 : is_derive (fun u : R => u * cw u) 4 (- (1 / 16)).
Proof.
  unfold cw. eapply der_eq.
  - apply der_mult; [apply der_id|]. apply der_inv; [apply der_mult; [apply der_id|apply (der_sqrt (fun u => u)); [apply der_id|lra]]|].
    rewrite sqrt_4. lra.
  - cbv beta. rewrite sqrt_4. field.
Qed.

Lemma quarter (W : vec -> vec -> vec -> vec -> R -> R -> M6) :
  (forall (mu t s : R) (r0 v0 r v : R -> vec) (dr dv : vec),
  0 < mu -> cross (r0 s) (v0 s) <> vzero -> vderive r0 s dr -> vderive v0 s dv ->
  locally s (fun u => flows_to mu t (r0 u, v0 u) (r u, v u)) ->
  let Phi := W (r s) (v s) (r0 s) (v0 s) t mu in
  vderive r s (vplus (row_col (b_rr Phi) dr) (row_col (b_rv Phi) dv)) /\
  vderive v s (vplus (row_col (b_vr Phi) dr) (row_col (b_vv Phi) dv))) ->
  let Phi := dxdx0 ra va rb vb (4 * PI) 1 in let Psi := W ra va rb vb (4 * PI) 1 in
  vplus (row_col (b_rr Psi) da) (row_col (b_rv Psi) db) = vplus (row_col (b_rr Phi) da) (row_col (b_rv Phi) db) /\
  vplus (row_col (b_vr Psi) da) (row_col (b_vv Psi) db) = vplus (row_col (b_vr Phi) da) (row_col (b_vv Phi) db).
Proof.
  intro H.
  assert (PI4 : 1 / 8 * (4 * PI) = PI / 2) by field.
  assert (E1 : cr 4 (4 * PI) = ra) by (unfold cr, ra; rewrite cw_4, PI4, cos_PI2, sin_PI2; apply mk3_eq; lra).
  assert (E2 : cv 4 (4 * PI) = va) by (unfold cv, va; rewrite cw_4, PI4, cos_PI2, sin_PI2; apply mk3_eq; lra).
  assert (E3 : cr 4 0 = rb) by (unfold cr, rb; rewrite Rmult_0_r, cos_0, sin_0; apply mk3_eq; lra).
  assert (E4 : cv 4 0 = vb) by (unfold cv, vb; rewrite Rmult_0_r, cw_4, cos_0, sin_0; apply mk3_eq; lra).
  assert (Z : cross (cr 4 0) (cv 4 0) <> vzero) by (rewrite E3, E4; unfold cross, rb, vb, vzero; cbn; intro Q; injection Q; lra).
  assert (DR : vderive (fun u => cr u 0) 4 da).
  { unfold cr, da. split; [|split]; cbn [c0 c1 c2].
    - apply (der_ext (fun u => u)); [intro u; rewrite Rmult_0_r, cos_0; ring|apply der_id].
    - apply (der_ext (fun u => 0)); [intro u; rewrite Rmult_0_r, sin_0; ring|apply der_const].
    - apply der_const. }
  assert (DV : vderive (fun u => cv u 0) 4 db).
  { unfold cv, db. split; [|split]; cbn [c0 c1 c2].
    - apply (der_ext (fun u => 0)); [intro u; rewrite Rmult_0_r, sin_0; ring|apply der_const].
    - apply (der_ext (fun u => u * cw u)); [intro u; rewrite Rmult_0_r, cos_0; ring|apply aw_der4].
    - apply der_const. }
  assert (HL : locally 4 (fun u => flows_to 1 (4 * PI) (cr u 0, cv u 0) (cr u (4 * PI), cv u (4 * PI)))).
  { exists (mkposreal (1 / 2) ltac:(lra)). intros u Hu. apply circle_flow.
    unfold ball in Hu; simpl in Hu; unfold AbsRing_ball, abs, minus, plus, opp in Hu; simpl in Hu.
    apply Rabs_lt_between in Hu. lra. }
  pose proof (H 1 (4 * PI) 4 (fun u => cr u 0) (fun u => cv u 0) (fun u => cr u (4 * PI)) (fun u => cv u (4 * PI)) da db
    ltac:(lra) Z DR DV HL) as A.
  pose proof (stm_derivative 1 (4 * PI) 4 (fun u => cr u 0) (fun u => cv u 0) (fun u => cr u (4 * PI)) (fun u => cv u (4 * PI)) da db
    ltac:(lra) Z DR DV HL) as B.
  cbv beta zeta in A, B. rewrite E1, E2, E3, E4 in A, B. destruct A as [A1 A2], B as [B1 B2].
  split; [exact (vd_uniq _ _ _ _ A1 B1)|exact (vd_uniq _ _ _ _ A2 B2)].
Qed.

Lemma ra_n : vnorm ra = 4. Proof. unfold vnorm. apply sqrt_is; unfold dot, ra; cbn; lra. Qed.
Lemma rb_n : vnorm rb = 4. Proof. unfold vnorm. apply sqrt_is; unfold dot, rb; cbn; lra. Qed.
Lemma vb_n : vnorm vb = 1 / 2. Proof. unfold vnorm. apply sqrt_is; unfold dot, vb; cbn; lra. Qed.
Lemma al_4 : alpha_of 4 (1 / 2) 1 = 1 / 4. Proof. rewrite alpha_of_R. lra. Qed.
Lemma chi_4 : generalized_anomaly (1 / 4) (sigma_fn ra va 1) (sigma_fn rb vb 1) (4 * PI) 1 = PI.
Proof. unfold generalized_anomaly. rewrite !sigma_fn_R. unnum. rewrite sqrt_1. unfold dot, ra, va, rb, vb. cbn. lra. Qed.
Lemma U_4 : ufunc1 PI (1 / 4) = 2 /\ ufunc2 PI (1 / 4) = 4 /\
  ufunc4 PI (1 / 4) = 2 * PI ^ 2 - 16 /\ ufunc5 PI (1 / 4) = 2 / 3 * PI ^ 3 - 16 * PI + 32.
Proof.
  assert (Q : sqrt (1 / 4) = 1 / 2) by (apply sqrt_is; lra).
  unfold ufunc1, ufunc2, ufunc4, ufunc5, ufunc2, ufunc3, ufunc1, ufunc0. unnum. unfold ltb. destruct (Rlt_dec 0 (1 / 4)); [|lra].
  rewrite Q. replace (1 / 2 * PI) with (PI / 2) by lra. rewrite cos_PI2, sin_PI2. cbn. repeat split; field.
Qed.

Lemma mk3_inv (a b c d e f : R) : mk3 a b c = mk3 d e f -> a = d /\ b = e /\ c = f.
Proof. intro H. inversion H. auto. Qed.
Ltac stm_eval :=
  cbv beta zeta; unfold dxdx0; change (@vector_norm R Num_R) with vnorm; rewrite ra_n, rb_n, vb_n, al_4, chi_4;
  destruct U_4 as (U1 & U2 & U4 & U5); rewrite ?U1, ?U2, ?U4, ?U5;
  cbn [b_rr b_rv b_vr b_vv].
Lemma C_4 : C_func PI 4 (2 * PI ^ 2 - 16) (2 / 3 * PI ^ 3 - 16 * PI + 32) (4 * PI) 1 = 96 - 48 * PI.
Proof. unfold C_func. unnum. rewrite sqrt_1. field. Qed.
Lemma FG_4 : lagrange_F 4 4 = 0 /\ lagrange_G 2 4 (sigma_fn rb vb 1) 4 1 = 8 /\ lagrange_Ft 2 4 4 1 = - (1 / 8) /\ lagrange_Gt 4 4 = 0.
Proof.
  rewrite lagrange_F_R, lagrange_G_R, lagrange_Ft_R, lagrange_Gt_R, sigma_fn_R, sqrt_1. unfold dot, rb, vb. cbn [c0 c1 c2].
  repeat split; field.
Qed.
Ltac stm_mat :=
  rewrite ?C_4; destruct FG_4 as (F4 & G4 & Ft4 & Gt4); rewrite F4, G4, Ft4, Gt4;
  unfold prpr0, prpv0, pvpr0, pvpv0;
  change (@vector_norm R Num_R) with vnorm; rewrite ra_n, rb_n; cbv zeta;
  rewrite ?rc_msub, ?rc_madd, ?rc_msub, ?rc_madd, ?rc_msub, ?rc_mscale, ?rc_mneg, ?rc_madd, ?rc_msub, ?rc_mmul, ?rc_mdivs, ?rc_scale_all, ?rc_mscale, ?rc_msub, ?rc_outer, ?rc_eye;
  change (@vsub R Num_R) with vminus; rewrite ?vdivs_smul;
  cbv [vplus vminus smul dot ra va rb vb da db c0 c1 c2 n_Z n_dec n_add n_sub n_mul n_div n_neg n_sqrt Num_R npow npow_aux mul_opt];
  intros A B; apply mk3_inv in A; apply mk3_inv in B; destruct A as (A1 & A2 & _), B as (B1 & B2 & _); rewrite ?sqrt_1 in *.

Lemma m052_C18_stm_is_derivative_of_flow : ~ (forall (mu t s : R) (r0 v0 r v : R -> vec) (dr dv : vec),
  0 < mu -> cross (r0 s) (v0 s) <> vzero -> vderive r0 s dr -> vderive v0 s dv ->
  locally s (fun u => flows_to mu t (r0 u, v0 u) (r u, v u)) ->
  let Phi := m052_dxdx0 (r s) (v s) (r0 s) (v0 s) t mu in
  vderive r s (vplus (row_col (b_rr Phi) dr) (row_col (b_rv Phi) dv)) /\
  vderive v s (vplus (row_col (b_vr Phi) dr) (row_col (b_vv Phi) dv))).
Proof.
  intro H. pose proof PI_RGT_0 as P0. pose proof PI_4. pose proof PI2_3_2.
  destruct (quarter _ H) as [A B]. clear H. revert A B. unfold m052_dxdx0, m052_C_func. stm_eval. stm_mat. lra.
Qed.

Lemma m053_C18_stm_is_derivative_of_flow : ~ (forall (mu t s : R) (r0 v0 r v : R -> vec) (dr dv : vec),
  0 < mu -> cross (r0 s) (v0 s) <> vzero -> vderive r0 s dr -> vderive v0 s dv ->
  locally s (fun u => flows_to mu t (r0 u, v0 u) (r u, v u)) ->
  let Phi := m053_dxdx0 (r s) (v s) (r0 s) (v0 s) t mu in
  vderive r s (vplus (row_col (b_rr Phi) dr) (row_col (b_rv Phi) dv)) /\
  vderive v s (vplus (row_col (b_vr Phi) dr) (row_col (b_vv Phi) dv))).
Proof.
  intro H. pose proof PI_RGT_0 as P0. pose proof PI_4. pose proof PI2_3_2.
  destruct (quarter _ H) as [A B]. clear H. revert A B. unfold m053_dxdx0, m053_prpr0. stm_eval. stm_mat. lra.
Qed.

Lemma m054_C18_stm_is_derivative_of_flow : ~ (forall (mu t s : R) (r0 v0 r v : R -> vec) (dr dv : vec),
  0 < mu -> cross (r0 s) (v0 s) <> vzero -> vderive r0 s dr -> vderive v0 s dv ->
  locally s (fun u => flows_to mu t (r0 u, v0 u) (r u, v u)) ->
  let Phi := m054_dxdx0 (r s) (v s) (r0 s) (v0 s) t mu in
  vderive r s (vplus (row_col (b_rr Phi) dr) (row_col (b_rv Phi) dv)) /\
  vderive v s (vplus (row_col (b_vr Phi) dr) (row_col (b_vv Phi) dv))).
Proof.
  intro H. pose proof PI_RGT_0 as P0. pose proof PI_4. pose proof PI2_3_2.
  destruct (quarter _ H) as [A B]. clear H. revert A B. unfold m054_dxdx0, m054_prpv0. stm_eval. stm_mat. lra.
Qed.

Lemma m055_C18_stm_is_derivative_of_flow : ~ (forall (mu t s : R) (r0 v0 r v : R -> vec) (dr dv : vec),
  0 < mu -> cross (r0 s) (v0 s) <> vzero -> vderive r0 s dr -> vderive v0 s dv ->
  locally s (fun u => flows_to mu t (r0 u, v0 u) (r u, v u)) ->
  let Phi := m055_dxdx0 (r s) (v s) (r0 s) (v0 s) t mu in
  vderive r s (vplus (row_col (b_rr Phi) dr) (row_col (b_rv Phi) dv)) /\
  vderive v s (vplus (row_col (b_vr Phi) dr) (row_col (b_vv Phi) dv))).
Proof.
  intro H. pose proof PI_RGT_0 as P0. pose proof PI_4. pose proof PI2_3_2.
  destruct (quarter _ H) as [A B]. clear H. revert A B. unfold m055_dxdx0, m055_pvpr0. stm_eval. stm_mat. lra.
Qed.

Lemma m056_C18_stm_is_derivative_of_flow : ~ (forall (mu t s : R) (r0 v0 r v : R -> vec) (dr dv : vec),
  0 < mu -> cross (r0 s) (v0 s) <> vzero -> vderive r0 s dr -> vderive v0 s dv ->
  locally s (fun u => flows_to mu t (r0 u, v0 u) (r u, v u)) ->
  let Phi := m056_dxdx0 (r s) (v s) (r0 s) (v0 s) t mu in
  vderive r s (vplus (row_col (b_rr Phi) dr) (row_col (b_rv Phi) dv)) /\
  vderive v s (vplus (row_col (b_vr Phi) dr) (row_col (b_vv Phi) dv))).
Proof.
  intro H. pose proof PI_RGT_0 as P0. pose proof PI_4. pose proof PI2_3_2.
  destruct (quarter _ H) as [A B]. clear H. revert A B. unfold m056_dxdx0, m056_pvpv0. stm_eval. stm_mat. lra.
Qed.

Lemma m057_C18_stm_is_derivative_of_flow : ~ (forall (mu t s : R) (r0 v0 r v : R -> vec) (dr dv : vec),
  0 < mu -> cross (r0 s) (v0 s) <> vzero -> vderive r0 s dr -> vderive v0 s dv ->
  locally s (fun u => flows_to mu t (r0 u, v0 u) (r u, v u)) ->
  let Phi := m057_dxdx0 (r s) (v s) (r0 s) (v0 s) t mu in
  vderive r s (vplus (row_col (b_rr Phi) dr) (row_col (b_rv Phi) dv)) /\
  vderive v s (vplus (row_col (b_vr Phi) dr) (row_col (b_vv Phi) dv))).
Proof.
  intro H. pose proof PI_RGT_0 as P0. pose proof PI_4. pose proof PI2_3_2.
  destruct (quarter _ H) as [A B]. clear H. revert A B. unfold m057_dxdx0. stm_eval. stm_mat. lra.
Qed.
