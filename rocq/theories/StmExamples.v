(** * StmExamples: concrete cases for C18-C20: circular orbits of varying radius *)
From Coq Require Import Reals Lra Lia Psatz.
From Coquelicot Require Import Coquelicot.
From Verif Require Import Num NumR Spec RLib Ana StateTrans KepMotion TwoBody KepRows Stm StmFacts StmMore StmSymp.
Local Open Scope R_scope.

Definition cw (u : R) : R := / (u * sqrt u).
Definition cr (u t : R) : vec := mk3 (u * cos (cw u * t)) (u * sin (cw u * t)) 0.
Definition cv (u t : R) : vec := mk3 (- (u * cw u) * sin (cw u * t)) (u * cw u * cos (cw u * t)) 0.

Lemma cr_norm u t : 0 < u -> vnorm (cr u t) = u.
Proof.
  intros H. apply vnorm_unique; [lra|]. unfold dot, cr; cbn [c0 c1 c2].
  pose proof (sin2_cos2 (cw u * t)) as E. unfold Rsqr in E.
  transitivity (u * u * (sin (cw u * t) * sin (cw u * t) + cos (cw u * t) * cos (cw u * t))); [rewrite E; ring|ring].
Qed.
Lemma cw_sq u : 0 < u -> cw u ^ 2 = 1 / u ^ 3.
Proof.
  intros H. unfold cw. pose proof (sqrt_lt_R0 u H). pose proof (sqrt_sqrt u ltac:(lra)) as E.
  replace ((/ (u * sqrt u)) ^ 2) with (/ (u * u * (sqrt u * sqrt u))) by (field; lra). rewrite E. field. lra.
Qed.

Lemma circle_motion u : 0 < u -> two_body_motion 1 (cr u) (cv u).
Proof.
  intros H t. pose proof (cr_norm u t H) as N.
  split; [|split].
  - apply vnorm_neq. lra.
  - unfold cr, cv. split; [|split]; cbn [c0 c1 c2]; auto_derive; auto; ring.
  - unfold gravity. rewrite N. pose proof (cw_sq u H) as W.
    assert (W' : u * cw u * cw u = 1 / u ^ 3 * u) by (rewrite <- W; ring).
    unfold cr, cv, smul. split; [|split]; cbn [c0 c1 c2]; auto_derive; auto; try ring.
    + transitivity (- (u * cw u * cw u) * cos (cw u * t)); [ring|rewrite W'; ring].
    + transitivity (- (u * cw u * cw u) * sin (cw u * t)); [ring|rewrite W'; ring].
Qed.
Lemma circle_flow u t : 0 < u -> flows_to 1 t (cr u 0, cv u 0) (cr u t, cv u t).
Proof. intros H. exists (cr u), (cv u). split; [now apply circle_motion|auto]. Qed.

Lemma cw_1 : cw 1 = 1.
Proof. unfold cw. rewrite sqrt_1. field. Qed.
Lemma cw_der : is_derive cw 1 (- (3 / 2)).
Proof.
  unfold cw. eapply der_eq.
  - apply der_inv; [apply der_mult; [apply der_id|apply (der_sqrt (fun u => u)); [apply der_id|lra]]|].
    rewrite sqrt_1. lra.
  - cbv beta. rewrite sqrt_1. field.
Qed.
Lemma aw_der : is_derive (fun u : R => u * cw u) 1 (- (1 / 2)).
Proof. eapply der_eq; [apply der_mult; [apply der_id|apply cw_der]|]. rewrite cw_1. field. Qed.

Lemma cr_der (t : R) : vderive (fun u => cr u t) 1
  (mk3 (cos t + 3 / 2 * t * sin t) (sin t - 3 / 2 * t * cos t) 0).
Proof.
  assert (W : is_derive (fun u : R => cw u * t) 1 (- (3 / 2) * t)) by (apply der_scal_r, cw_der).
  unfold cr. split; [|split]; cbn [c0 c1 c2].
  - eapply der_eq; [apply der_mult; [apply der_id|apply (der_comp cos (fun u => cw u * t)); [apply is_derive_cos|exact W]]|].
    cbv beta. rewrite cw_1, ?Rmult_1_l. ring.
  - eapply der_eq; [apply der_mult; [apply der_id|apply (der_comp sin (fun u => cw u * t)); [apply is_derive_sin|exact W]]|].
    cbv beta. rewrite cw_1, ?Rmult_1_l. ring.
  - apply der_const.
Qed.
Lemma cv_der (t : R) : vderive (fun u => cv u t) 1
  (mk3 (sin t / 2 + 3 / 2 * t * cos t) (- (cos t / 2) + 3 / 2 * t * sin t) 0).
Proof.
  assert (W : is_derive (fun u : R => cw u * t) 1 (- (3 / 2) * t)) by (apply der_scal_r, cw_der).
  unfold cv. split; [|split]; cbn [c0 c1 c2].
  - eapply der_eq; [apply der_mult; [apply der_opp, aw_der|apply (der_comp sin (fun u => cw u * t)); [apply is_derive_sin|exact W]]|].
    cbv beta. rewrite cw_1, ?Rmult_1_l. field.
  - eapply der_eq; [apply der_mult; [apply aw_der|apply (der_comp cos (fun u => cw u * t)); [apply is_derive_cos|exact W]]|].
    cbv beta. rewrite cw_1, ?Rmult_1_l. field.
  - apply der_const.
Qed.

(** On the unit circle: enlarging the initial orbit makes the position drift by (3/2) t. *)
Lemma stm_circle (t : R) :
  let Phi := dxdx0 (mk3 (cos t) (sin t) 0) (mk3 (- sin t) (cos t) 0) (mk3 1 0 0) (mk3 0 1 0) t 1 in
  let dr := mk3 1 0 0 in let dv := mk3 0 (- (1 / 2)) 0 in
  vplus (row_col (b_rr Phi) dr) (row_col (b_rv Phi) dv)
    = mk3 (cos t + 3 / 2 * t * sin t) (sin t - 3 / 2 * t * cos t) 0 /\
  vplus (row_col (b_vr Phi) dr) (row_col (b_vv Phi) dv)
    = mk3 (sin t / 2 + 3 / 2 * t * cos t) (- (cos t / 2) + 3 / 2 * t * sin t) 0.
Proof.
  cbv zeta.
  assert (R1 : forall t, cr 1 t = mk3 (cos t) (sin t) 0) by (intros; unfold cr; rewrite cw_1, !Rmult_1_l; reflexivity).
  assert (V1 : forall t, cv 1 t = mk3 (- sin t) (cos t) 0).
  { intros s. unfold cv. rewrite cw_1, !Rmult_1_l. f_equal. ring. }
  assert (R0 : cr 1 0 = mk3 1 0 0) by (rewrite R1, cos_0, sin_0; reflexivity).
  assert (V0 : cv 1 0 = mk3 0 1 0) by (rewrite V1, cos_0, sin_0; f_equal; ring).
  assert (Hh : cross (cr 1 0) (cv 1 0) <> vzero).
  { rewrite R0, V0. unfold cross, vzero; cbn [c0 c1 c2]. intros E. injection E. lra. }
  assert (DR : vderive (fun u => cr u 0) 1 (mk3 1 0 0)).
  { eapply vd_eq; [apply cr_der|]. rewrite cos_0, sin_0. apply mk3_eq; ring. }
  assert (DV : vderive (fun u => cv u 0) 1 (mk3 0 (- (1 / 2)) 0)).
  { eapply vd_eq; [apply cv_der|]. rewrite cos_0, sin_0. apply mk3_eq; field. }
  assert (HL : locally 1 (fun u => flows_to 1 t (cr u 0, cv u 0) (cr u t, cv u t))).
  { exists (mkposreal (1 / 2) ltac:(lra)). intros u Hu. apply circle_flow.
    unfold ball in Hu; simpl in Hu; unfold AbsRing_ball, abs, minus, plus, opp in Hu; simpl in Hu.
    apply Rabs_lt_between in Hu. lra. }
  pose proof (stm_derivative 1 t 1 (fun u => cr u 0) (fun u => cv u 0) (fun u => cr u t) (fun u => cv u t) _ _
    ltac:(lra) Hh DR DV HL) as Z. cbv beta zeta in Z. rewrite R0, V0, R1, V1 in Z. destruct Z as [Z1 Z2].
  split; [exact (vd_uniq _ _ _ _ Z1 (cr_der t))|exact (vd_uniq _ _ _ _ Z2 (cv_der t))].
Qed.

Lemma quarter_turn : 0 < 1 /\ cross (mk3 1 0 0) (mk3 0 1 0) <> vzero /\
  flows_to 1 (PI / 2) (mk3 1 0 0, mk3 0 1 0) (mk3 0 1 0, mk3 (-1) 0 0).
Proof.
  split; [lra|]. split.
  - unfold cross, vzero; cbn [c0 c1 c2]. intros E. injection E. lra.
  - pose proof (circle_flow 1 (PI / 2) Rlt_0_1) as H. unfold cr, cv in H.
    rewrite cw_1, !Rmult_1_l, sin_PI2, cos_PI2, sin_0, cos_0 in H.
    replace (- (1) * 0) with 0 in H by ring. replace (- (1) * 1) with (-1) in H by ring. exact H.
Qed.
Lemma stm_quarter_turn : let Phi := dxdx0 (mk3 0 1 0) (mk3 (-1) 0 0) (mk3 1 0 0) (mk3 0 1 0) (PI / 2) 1 in
  vplus (row_col (b_rr Phi) (mk3 0 1 0)) (row_col (b_rv Phi) (mk3 (-1) 0 0)) = mk3 (-1) 0 0.
Proof.
  destruct quarter_turn as [A [B C]].
  pose proof (stm_flow_field 1 (PI / 2) _ _ _ _ A B C) as [Z _]. unfold gravity in Z.
  replace (vnorm (mk3 1 0 0)) with 1 in Z.
  2:{ symmetry. apply vnorm_unique; [lra|]. unfold dot; cbn [c0 c1 c2]. ring. }
  replace (smul (- (1 / 1 ^ 3)) (mk3 1 0 0)) with (mk3 (-1) 0 0) in Z; [exact Z|].
  unfold smul; cbn [c0 c1 c2]. apply mk3_eq; field.
Qed.
