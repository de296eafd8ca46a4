(** * AdKep: forward-mode differentiation of the propagator *)
From Coq Require Import Reals Lra ZArith List.
From Coquelicot Require Import Coquelicot.
Import ListNotations.
From Verif Require Import Num NumR NumD Spec SpecAd RLib Ana SeriesU Stm StmExamples OrbFacts UFacts KepState KepMotion KepRows LoopFacts AdOps AdFacts Trace TraceLib.
From Verif Require Import OrbIntegrals Uniformulas Lagrange KepEqu StateTrans PropKepler TwoBody StmFacts StmMore.
Local Open Scope R_scope.

Lemma sgn_mul0 x : 0 * sgn x = 0. Proof. ring. Qed.
Lemma hom_konst : @hom R dual Num_R Num_D konst.
Proof.
  split; intros; unfold konst; cbn; try reflexivity; f_equal; unfold Rdiv; ring.
Qed.
Lemma hom_val : @hom dual R Num_D Num_R val.
Proof. split; reflexivity. Qed.

Lemma Forall2_maps {A B C} (P : B -> C -> Prop) (f : A -> B) (g : A -> C) l : (forall x, In x l -> P (f x) (g x)) -> Forall2 P (map f l) (map g l).
Proof.
  induction l as [|x l IH]; intros H; cbn; constructor; [apply H; now left|apply IH; intros; apply H; now right].
Qed.

Section Jac.
  Context (mu s : R) (r0 v0 : R -> vec) (dr dv : V3 dual).
  Hypothesis Hmu : 0 < mu.
  Hypothesis Hh : cross (r0 s) (v0 s) <> vzero.
  Hypothesis He : energy mu (r0 s) (v0 s) <> 0.
  Hypothesis Hr : vcarries r0 s dr.
  Hypothesis Hv : vcarries v0 s dv.
  Let rz : r0 s <> vzero. Proof using Hh. exact (vec_nonzero_l _ _ Hh). Qed.
  Let vz : v0 s <> vzero. Proof using Hh. exact (vec_nonzero_r _ _ Hh). Qed.
  Lemma alpha_neq : 2 / vector_norm (r0 s) - vector_norm (v0 s) ^ 2 / mu <> 0.
  Proof using Hmu Hh He.
    rewrite (vector_norm_vnorm (r0 s)), (vector_norm_vnorm (v0 s)). pose proof (vnorm_pos _ rz) as P. intros E. apply He. unfold energy.
    rewrite vnorm_sq2 in E.
    replace (dot (v0 s) (v0 s)) with (mu * (dot (v0 s) (v0 s) / mu)) by (field; lra).
    replace (dot (v0 s) (v0 s) / mu) with (2 / vnorm (r0 s)) by lra. field. lra.
  Qed.
  Let nD := @vector_norm _ Num_D dr.
  Let aD := @alpha_of _ Num_D nD (@vector_norm _ Num_D dv) (konst mu).
  Let sD := @sigma_fn _ Num_D dr dv (konst mu).
  Let al u := alpha_of (vector_norm (r0 u)) (vector_norm (v0 u)) mu.
  Let sg u := sigma_fn (r0 u) (v0 u) mu.
  Lemma c_n : carries (fun u => vector_norm (r0 u)) s nD.
  Proof using Hr Hh. now apply va_norm. Qed.
  Lemma c_al : carries al s aD.
  Proof using Hr Hv Hh Hmu He.
    assert (Q : mu <> 0) by lra.
    exact (ad_alpha_of s (fun u => vector_norm (r0 u)) (fun u => vector_norm (v0 u)) (fun _ => mu) _ _ _ c_n (va_norm _ _ _ Hv vz) (a_const mu s) (norm_neq _ rz) Q alpha_neq).
  Qed.
  Lemma c_sg : carries sg s sD.
  Proof using Hr Hv Hmu. apply (ad_sigma_fn s r0 v0 (fun _ => mu)); [assumption|assumption|apply a_const|assumption]. Qed.
  Lemma al_neq : al s <> 0.
  Proof using Hmu Hh He. unfold al. rewrite !vector_norm_vnorm, alpha_of_S. unfold alphaS. pose proof alpha_neq as A. now rewrite !vector_norm_vnorm in A. Qed.
  Lemma row_carries chi :
    let o := @state_at_chi _ Num_D (konst chi) aD sD nD dr dv (konst mu) in
    vcarries (fun u => posS (r0 u) (v0 u) mu chi) s (fst o) /\ vcarries (fun u => velS (r0 u) (v0 u) mu chi) s (snd o).
  Proof using Hr Hv Hh Hmu He.
    cbv zeta.
    destruct (ad_state_at_chi s (fun _ => chi) al sg (fun u => vector_norm (r0 u)) r0 v0 (fun _ => mu) (konst chi) aD sD nD dr dv (konst mu)) as [P V];
      [apply a_const|apply c_al|apply c_sg|apply c_n|assumption|assumption|apply a_const|apply al_neq|now apply norm_neq|assumption| |].
    - unfold al, sg. rewrite !vector_norm_vnorm, dchi_S. now apply radS_neq.
    - assert (E : forall u, state_at_chi chi (al u) (sg u) (vector_norm (r0 u)) (r0 u) (v0 u) mu = (posS (r0 u) (v0 u) mu chi, velS (r0 u) (v0 u) mu chi)).
      { intros u. unfold al, sg. rewrite !vector_norm_vnorm. apply state_at_chi_S. }
      split.
      + destruct P as (P0 & P1 & P2). split; [|split]; eapply a_ext; try eassumption; intros u; cbv beta; now rewrite E.
      + destruct V as (P0 & P1 & P2). split; [|split]; eapply a_ext; try eassumption; intros u; cbv beta; now rewrite E.
  Qed.
  Lemma items_jvp ts :
    @kepler_items _ Num_D item_D (map konst ts) dr dv (konst mu)
    = Some (map (fun chi => @state_at_chi _ Num_D (konst chi) aD sD nD dr dv (konst mu))
        (vmap_solve_kepler_uni ts (al s) (vector_norm (r0 s)) (sg s) mu)).
  Proof using Hr Hv Hh Hmu He.
    unfold kepler_items. cbv zeta. fold nD aD sD. unfold item_D.
    rewrite (carries_val _ _ _ c_al), (carries_val _ _ _ c_sg), (carries_val _ _ _ c_n).
    rewrite (@hom_solve _ _ Num_R Num_D konst hom_konst), map_map. reflexivity.
  Qed.
End Jac.

(** [jax.jacfwd] of [kepler] in the state: the derivative with the generalized anomaly held fixed. *)
Section Fixed.
  Context (mu s : R) (r0 v0 : R -> vec) (dr dv : V3 dual).
  Hypothesis Hmu : 0 < mu.
  Hypothesis Hh : cross (r0 s) (v0 s) <> vzero.
  Hypothesis He : energy mu (r0 s) (v0 s) <> 0.
  Hypothesis Hr : vcarries r0 s dr.
  Hypothesis Hv : vcarries v0 s dv.
  Lemma vc_der (x : R -> vec) d : vcarries x s d -> vderive x s (vtang d).
  Proof using. intros ((_ & A) & (_ & B) & (_ & C)). split; [|split]; assumption. Qed.
  Lemma fixed_row chi : let tau u := timeS (r0 u) (v0 u) mu chi / sqrt mu in
    (exists tau', is_derive tau s tau') /\
    locally s (fun u => flows_to mu (tau u) (r0 u, v0 u) (posS (r0 u) (v0 u) mu chi, velS (r0 u) (v0 u) mu chi)) /\
    locally s (fun u => alphaS (r0 u) (v0 u) mu * sqrt mu * tau u
      + (dot (posS (r0 u) (v0 u) mu chi) (velS (r0 u) (v0 u) mu chi) - dot (r0 u) (v0 u)) / sqrt mu = chi).
  Proof using Hmu Hh Hr Hv.
    cbv zeta. pose proof (sqrt_pos_neq mu Hmu) as Q.
    pose proof (near r0 v0 s mu _ _ Hmu Hh (vc_der _ _ Hr) (vc_der _ _ Hv)) as L. split; [|split].
    - eexists. unfold Rdiv. apply der_scal_r. exact (time_der r0 v0 s mu _ _ Hmu Hh (vc_der _ _ Hr) (vc_der _ _ Hv) (fun _ => chi)).
    - generalize L. apply filter_imp. intros u [C _]. apply flow_state; [assumption|assumption|]. field. assumption.
    - generalize L. apply filter_imp. intros u [C _].
      pose proof (anomaly_recovered mu (timeS (r0 u) (v0 u) mu chi / sqrt mu) chi (r0 u) (v0 u) _ _ Hmu C (eq_sym (state_at_chi_S chi (r0 u) (v0 u) mu))) as A. cbv zeta in A.
      rewrite kepler_equ_uni_S, alpha_of_S, generalized_anomaly_R, !sigma_fn_R in A.
      transitivity (chi - alphaS (r0 u) (v0 u) mu * (timeS (r0 u) (v0 u) mu chi - sqrt mu * (timeS (r0 u) (v0 u) mu chi / sqrt mu))).
      + rewrite <- A. field. assumption.
      + field. assumption.
  Qed.
  Lemma jvp_rows ts :
    exists outs, @kepler_items _ Num_D item_D (map konst ts) dr dv (konst mu) = Some outs /\
    Forall2 (fun x o => exists (chi : R) (tau : R -> R) (r v : R -> vec),
      (r s, v s) = x /\ (exists tau', is_derive tau s tau') /\
      locally s (fun u => flows_to mu (tau u) (r0 u, v0 u) (r u, v u)) /\
      locally s (fun u => (2 / vnorm (r0 u) - vnorm (v0 u) ^ 2 / mu) * sqrt mu * tau u + (dot (r u) (v u) - dot (r0 u) (v0 u)) / sqrt mu = chi) /\
      vcarries r s (fst o) /\ vcarries v s (snd o)) (kepler ts (r0 s) (v0 s) mu) outs.
  Proof using Hmu Hh He Hr Hv.
    eexists. split; [exact (items_jvp mu s r0 v0 dr dv Hmu Hh He Hr Hv ts)|]. unfold kepler. cbv zeta. apply Forall2_maps. intros chi _.
    exists chi, (fun u => timeS (r0 u) (v0 u) mu chi / sqrt mu), (fun u => posS (r0 u) (v0 u) mu chi), (fun u => velS (r0 u) (v0 u) mu chi).
    destruct (fixed_row chi) as (A & B & C). destruct (row_carries mu s r0 v0 dr dv Hmu Hh He Hr Hv chi) as (P & V).
    split; [|split; [exact A|split; [exact B|split; [exact C|split; [exact P|exact V]]]]].
    symmetry. exact (state_at_chi_S chi (r0 s) (v0 s) mu).
  Qed.
End Fixed.

(** One revolution of the unit circle, speed varied. *)
Section Turn.
  Let dr : V3 dual := mk3 (konst 1) (konst 0) (konst 0).
  Let dv : V3 dual := mk3 (konst 0) (mkD 1 1) (konst 0).
  Lemma D_eq a b c d : a = c -> b = d -> mkD a b = mkD c d. Proof using. now intros -> ->. Qed.
  Lemma turn_n : @vector_norm _ Num_D dr = mkD 1 0.
  Proof using.
    unfold vector_norm, vinner, dr. cbn. replace (1 * 1 + 0 * 0 + 0 * 0) with 1 by ring. rewrite sqrt_1. apply D_eq; field.
  Qed.
  Lemma turn_v : @vector_norm _ Num_D dv = mkD 1 1.
  Proof using.
    unfold vector_norm, vinner, dv. cbn. replace (0 * 0 + 1 * 1 + 0 * 0) with 1 by ring. rewrite sqrt_1. apply D_eq; field.
  Qed.
  Lemma turn_a : @alpha_of _ Num_D (mkD 1 0) (mkD 1 1) (konst 1) = mkD 1 (-2).
  Proof using. unfold alpha_of, semimajor_axis. cbn. apply D_eq; field. Qed.
  Lemma turn_s : @sigma_fn _ Num_D dr dv (konst 1) = mkD 0 0.
  Proof using. unfold sigma_fn, vinner, dr, dv. cbn. rewrite sqrt_1. apply D_eq; field. Qed.
  Lemma turn_gt : @n_gt _ Num_D (mkD 1 (-2)) (@n_Z _ Num_D 0) = true.
  Proof using. unfold n_gt. cbn. unfold ltb. destruct (Rlt_dec 0 1); [reflexivity|lra]. Qed.
  Lemma turn_u0 : @ufunc0 _ Num_D (konst (2 * PI)) (mkD 1 (-2)) = mkD 1 0.
  Proof using. unfold ufunc0. rewrite turn_gt. cbn. rewrite sqrt_1, Rmult_1_l, cos_2PI, sin_2PI. apply D_eq; field. Qed.
  Lemma turn_u1 : @ufunc1 _ Num_D (konst (2 * PI)) (mkD 1 (-2)) = mkD 0 (- (2 * PI)).
  Proof using. unfold ufunc1. rewrite turn_gt. cbn. rewrite sqrt_1, Rmult_1_l, cos_2PI, sin_2PI. apply D_eq; field. Qed.
  Lemma turn_u2 : @ufunc2 _ Num_D (konst (2 * PI)) (mkD 1 (-2)) = mkD 0 0.
  Proof using. unfold ufunc2. rewrite turn_gt. cbn. rewrite sqrt_1, Rmult_1_l, cos_2PI, sin_2PI. apply D_eq; field. Qed.
  Lemma turn_state : @state_at_chi _ Num_D (konst (2 * PI)) (mkD 1 (-2)) (mkD 0 0) (mkD 1 0) dr dv (konst 1)
    = (mk3 (mkD 1 0) (mkD 0 (- (2 * PI))) (mkD 0 0), mk3 (mkD 0 (2 * PI)) (mkD 1 1) (mkD 0 0)).
  Proof using.
    unfold state_at_chi. rewrite turn_u0, turn_u1, turn_u2. cbv zeta. unfold lagrange_prop, lagrange_F, lagrange_G, lagrange_Ft, lagrange_Gt, equ_of_orb_uvi, vadd, vscale, vzip3, vmap3, dr, dv.
    cbn. rewrite sqrt_1. apply f_equal2; (apply mk3_eq; apply D_eq; field).
  Qed.
  Lemma turn_solve : vmap_solve_kepler_uni [2 * PI] 1 1 0 1 = [2 * PI].
  Proof using.
    rewrite vmap_solve_eq. cbn [map]. rewrite uni_loop_idle; [rewrite uni_guess_R, sqrt_1, Rabs_R1; f_equal; ring|].
    rewrite uni_guess_R, sqrt_1, Rabs_R1. replace (1 * 1 * (2 * PI)) with (2 * PI) by ring.
    apply exceeds_R_false. rewrite default_tol_R. replace (kepler_equ_uni (2 * PI) 1 1 0 (2 * PI) 1) with 0; [rewrite Rabs_R0; lra|].
    assert (G : @n_gt _ Num_R 1 (n_Z 0) = true) by (unfold n_gt; cbn; unfold ltb; destruct (Rlt_dec 0 1); [reflexivity|lra]).
    unfold kepler_equ_uni, ufunc1, ufunc2, ufunc3. rewrite G. cbn. rewrite sqrt_1. replace (1 * (2 * PI)) with (2 * PI) by ring. rewrite cos_2PI, sin_2PI. field.
  Qed.
  Lemma turn_jvp : @kepler_items _ Num_D item_D [konst (2 * PI)] dr dv (konst 1)
    = Some [(mk3 (mkD 1 0) (mkD 0 (- (2 * PI))) (mkD 0 0), mk3 (mkD 0 (2 * PI)) (mkD 1 1) (mkD 0 0))].
  Proof using.
    unfold kepler_items. cbv zeta. rewrite turn_n, turn_v, turn_a, turn_s. unfold item_D. cbn [val].
    change [konst (2 * PI)] with (map konst [2 * PI]). rewrite (@hom_solve _ _ Num_R Num_D konst hom_konst), turn_solve. cbn [map]. now rewrite turn_state.
  Qed.
  (** The derivative of the flow. *)
  Lemma turn_h : cross (mk3 1 0 0) (mk3 0 1 0) <> vzero.
  Proof using. unfold cross, vzero; cbn [c0 c1 c2]. intros E. injection E. lra. Qed.
  Lemma turn_flow : flows_to 1 (2 * PI) (mk3 1 0 0, mk3 0 1 0) (mk3 1 0 0, mk3 0 1 0).
  Proof using.
    pose proof (circle_flow 1 (2 * PI) Rlt_0_1) as H. unfold cr, cv in H.
    rewrite cw_1, !Rmult_1_l, sin_2PI, cos_2PI, sin_0, cos_0 in H. replace (- (1) * 0) with 0 in H by ring. exact H.
  Qed.
  Lemma turn_rv : row_col (b_rv (dxdx0 (mk3 1 0 0) (mk3 0 1 0) (mk3 1 0 0) (mk3 0 1 0) (2 * PI) 1)) (mk3 0 1 0) = mk3 0 (- (6 * PI)) 0.
  Proof using.
    unfold dxdx0. cbn [b_rv].
    assert (N1 : vector_norm (mk3 1 0 0) = 1).
    { unfold vector_norm, vinner. cbn. replace (1 * 1 + 0 * 0 + 0 * 0) with 1 by ring. apply sqrt_1. }
    assert (N2 : vector_norm (mk3 0 1 0) = 1).
    { unfold vector_norm, vinner. cbn. replace (0 * 0 + 1 * 1 + 0 * 0) with 1 by ring. apply sqrt_1. }
    assert (A1 : alpha_of 1 1 1 = 1) by (unfold alpha_of, semimajor_axis; cbn; field).
    assert (S1 : sigma_fn (mk3 1 0 0) (mk3 0 1 0) 1 = 0) by (unfold sigma_fn, vinner; cbn; rewrite sqrt_1; field).
    rewrite N1, N2, A1, S1.
    assert (C1 : generalized_anomaly 1 0 0 (2 * PI) 1 = 2 * PI) by (unfold generalized_anomaly; cbn; rewrite sqrt_1; ring).
    rewrite C1.
    assert (G : @n_gt _ Num_R 1 (n_Z 0) = true) by (unfold n_gt; cbn; apply ltb_true; lra).
    assert (U1 : ufunc1 (2 * PI) 1 = 0).
    { unfold ufunc1. rewrite G. cbn. rewrite sqrt_1, Rmult_1_l, sin_2PI. field. }
    assert (U2 : ufunc2 (2 * PI) 1 = 0).
    { unfold ufunc2. rewrite G. cbn. rewrite sqrt_1, Rmult_1_l, cos_2PI. field. }
    assert (U4 : ufunc4 (2 * PI) 1 = 2 * PI ^ 2).
    { unfold ufunc4. rewrite G. cbn. rewrite sqrt_1. replace (1 * (2 * PI)) with (2 * PI) by ring. rewrite cos_2PI. field. }
    assert (U5 : ufunc5 (2 * PI) 1 = 4 / 3 * PI ^ 3 - 2 * PI).
    { unfold ufunc5. rewrite G. cbn. rewrite sqrt_1. replace (1 * (2 * PI)) with (2 * PI) by ring. rewrite sin_2PI. field. }
    rewrite U1, U2, U4, U5, prpv0_act. unfold C_func, lagrange_F, lagrange_G, vminus, smul, vplus, dot. cbn. rewrite sqrt_1. apply mk3_eq; field.
  Qed.
  Lemma turn_true (r v : R -> vec) :
    locally 0 (fun u => flows_to 1 (2 * PI) (mk3 1 0 0, mk3 0 (1 + u) 0) (r u, v u)) -> vderive r 0 (mk3 0 (- (6 * PI)) 0).
  Proof using.
    intros L.
    assert (DR : vderive (fun _ : R => mk3 1 0 0) 0 (mk3 0 0 0)) by (split; [|split]; apply der_const).
    assert (DV : vderive (fun u : R => mk3 0 (1 + u) 0) 0 (mk3 0 1 0)).
    { assert (D1 : is_derive (fun u : R => 1 + u) 0 1) by (eapply der_eq; [apply (der_plus (fun _ => 1) (fun u => u)); [apply der_const|apply der_id]|ring]).
      exact (conj (der_const 0 0) (conj D1 (der_const 0 0))). }
    assert (H0 : cross (mk3 1 0 0) (mk3 0 (1 + 0) 0) <> vzero) by (rewrite Rplus_0_r; exact turn_h).
    destruct (stm_derivative 1 (2 * PI) 0 (fun _ => mk3 1 0 0) (fun u => mk3 0 (1 + u) 0) r v _ _ Rlt_0_1 H0 DR DV L) as [Z _].
    cbv beta zeta in Z. pose proof (locally_singleton _ _ L) as F. cbv beta in F. rewrite Rplus_0_r in F, Z.
    pose proof (flow_det 1 (2 * PI) (mk3 1 0 0, mk3 0 1 0) _ _ Rlt_0_1 turn_h turn_flow F) as E. apply pair_equal_spec in E. destruct E as [E1 E2]. rewrite <- E1, <- E2 in Z.
    eapply vd_eq; [exact Z|]. rewrite turn_rv. unfold vplus, row_col, dot. cbn [c0 c1 c2]. apply mk3_eq; ring.
  Qed.
  Lemma turn_exists : exists r v : R -> vec, locally 0 (fun u => flows_to 1 (2 * PI) (mk3 1 0 0, mk3 0 (1 + u) 0) (r u, v u)).
  Proof using.
    assert (H : forall u, 1 + u <> 0 -> cross (mk3 1 0 0) (mk3 0 (1 + u) 0) <> vzero).
    { intros u Hu E. apply Hu. unfold cross, vzero in E; cbn [c0 c1 c2] in E. injection E. lra. }
    exists (fun u => match Req_EM_T (1 + u) 0 with left _ => vzero | right P => rM _ _ 1 Rlt_0_1 (H u P) (2 * PI) end),
           (fun u => match Req_EM_T (1 + u) 0 with left _ => vzero | right P => vM _ _ 1 Rlt_0_1 (H u P) (2 * PI) end).
    exists (mkposreal (1 / 2) ltac:(lra)). intros u Hu.
    unfold ball in Hu; simpl in Hu; unfold AbsRing_ball, abs, minus, plus, opp in Hu; simpl in Hu. apply Rabs_lt_between in Hu.
    destruct (Req_EM_T (1 + u) 0) as [E|P]; [lra|].
    exists (rM _ _ 1 Rlt_0_1 (H u P)), (vM _ _ 1 Rlt_0_1 (H u P)). destruct (motion_start _ _ 1 Rlt_0_1 (H u P)) as [A B].
    split; [apply motion|]. now rewrite A, B.
  Qed.
End Turn.

(** The time derivative. *)
Section Time.
  Context (s : R).
  Lemma const_cases (al : R) (f g h : R -> R) d1 d2 d3 :
    (0 < al -> carries f s d1) -> (al < 0 -> carries g s d2) -> (al = 0 -> carries h s d3) ->
    carries (fun u => where_ (n_gt al (n_Z 0)) (f u) (where_ (n_lt al (n_Z 0)) (g u) (h u))) s
      (where_ (@n_gt _ Num_D (konst al) (@n_Z _ Num_D 0)) d1 (where_ (@n_lt _ Num_D (konst al) (@n_Z _ Num_D 0)) d2 d3)).
  Proof using.
    intros A B C. unfold where_, n_gt, konst. cbn. unfold ltb.
    destruct (Rlt_dec 0 al); [now apply A|]. destruct (Rlt_dec al 0); [now apply B|]. apply C. lra.
  Qed.
  Context (chi : R -> R) (d : dual) (al : R).
  Hypothesis H : carries chi s d.
  Let K : carries (fun _ => al) s (konst al). Proof using. apply a_const. Qed.
  Ltac go := apply const_cases; intros L; ad; rr; try (apply Rgt_not_eq, sqrt_lt_R0); lra.
  Lemma at_u0 : carries (fun u => ufunc0 (chi u) al) s (@ufunc0 _ Num_D d (konst al)).
  Proof using H. unfold ufunc0. go. Qed.
  Lemma at_u1 : carries (fun u => ufunc1 (chi u) al) s (@ufunc1 _ Num_D d (konst al)).
  Proof using H. unfold ufunc1. go. Qed.
  Lemma at_u2 : carries (fun u => ufunc2 (chi u) al) s (@ufunc2 _ Num_D d (konst al)).
  Proof using H. unfold ufunc2. go. Qed.
  Lemma at_u3 : carries (fun u => ufunc3 (chi u) al) s (@ufunc3 _ Num_D d (konst al)).
  Proof using H. unfold ufunc3. go. Qed.
  Lemma at_dchi r0 s0 : carries (fun u => dchi (chi u) al r0 s0) s (@dchi _ Num_D d (konst al) (konst r0) (konst s0)).
  Proof using H.
    unfold dchi. apply (ad_equ_of_orb_uvi s _ _ _ (fun _ => r0) (fun _ => s0)); [apply at_u0|apply at_u1|apply at_u2|apply a_const|apply a_const].
  Qed.
  Lemma at_keq r0 s0 (t : R -> R) dt mu : carries t s dt -> 
    carries (fun u => kepler_equ_uni (chi u) al r0 s0 (t u) mu) s (@kepler_equ_uni _ Num_D d (konst al) (konst r0) (konst s0) dt (konst mu)).
  Proof using H.
    intros Ht. unfold kepler_equ_uni. pose proof at_u1. pose proof at_u2. pose proof at_u3.
    pose proof (a_const r0 s). pose proof (a_const s0 s).
    assert (carries (fun _ => n_sqrt mu) s (@n_sqrt _ Num_D (konst mu))).
    { replace (@n_sqrt _ Num_D (konst mu)) with (konst (n_sqrt mu)); [apply a_const|]. apply (h_sqrt _ hom_konst). }
    apply a_sub; [ad|apply (a_mul (fun _ => n_sqrt mu)); assumption].
  Qed.
  Lemma at_state (r v : vec) mu s0 n0 : n0 <> 0 -> 0 < mu -> dchi (chi s) al n0 s0 <> 0 ->
    vcarries (fun u => fst (state_at_chi (chi u) al s0 n0 r v mu)) s
      (fst (@state_at_chi _ Num_D d (konst al) (konst s0) (konst n0) (vmap3 konst r) (vmap3 konst v) (konst mu))) /\
    vcarries (fun u => snd (state_at_chi (chi u) al s0 n0 r v mu)) s
      (snd (@state_at_chi _ Num_D d (konst al) (konst s0) (konst n0) (vmap3 konst r) (vmap3 konst v) (konst mu))).
  Proof using H.
    intros N P D. unfold state_at_chi. cbv zeta.
    pose proof at_u0 as U0. pose proof at_u1 as U1. pose proof at_u2 as U2.
    pose proof (a_const n0 s) as Hn. pose proof (a_const s0 s) as Hs. pose proof (a_const mu s) as Hm.
    pose proof (ad_equ_of_orb_uvi s _ _ _ (fun _ => n0) (fun _ => s0) _ _ _ _ _ U0 U1 U2 Hn Hs) as Hr.
    assert (Kv : forall x : vec, vcarries (fun _ => x) s (vmap3 konst x)) by (intros x; split; [|split]; apply a_const).
    apply (ad_lagrange_prop s (fun u => lagrange_F (ufunc2 (chi u) al) n0) (fun u => lagrange_G (ufunc1 (chi u) al) (ufunc2 (chi u) al) s0 n0 mu)
      (fun u => lagrange_Ft (ufunc1 (chi u) al) (equ_of_orb_uvi (ufunc0 (chi u) al) (ufunc1 (chi u) al) (ufunc2 (chi u) al) n0 s0) n0 mu)
      (fun u => lagrange_Gt (ufunc2 (chi u) al) (equ_of_orb_uvi (ufunc0 (chi u) al) (ufunc1 (chi u) al) (ufunc2 (chi u) al) n0 s0)) (fun _ => r) (fun _ => v)); try apply Kv.
    - exact (ad_lagrange_F s _ (fun _ => n0) _ _ U2 Hn N).
    - exact (ad_lagrange_G s _ _ (fun _ => s0) (fun _ => n0) (fun _ => mu) _ _ _ _ _ U1 U2 Hs Hn Hm P).
    - exact (ad_lagrange_Ft s _ (fun u => equ_of_orb_uvi (ufunc0 (chi u) al) (ufunc1 (chi u) al) (ufunc2 (chi u) al) n0 s0) (fun _ => n0) (fun _ => mu) _ _ _ _ U1 Hr Hn Hm D N P).
    - exact (ad_lagrange_Gt s _ (fun u => equ_of_orb_uvi (ufunc0 (chi u) al) (ufunc1 (chi u) al) (ufunc2 (chi u) al) n0 s0) _ _ U2 Hr D).
  Qed.
End Time.

Section Rate.
  Context (mu : R) (r0 v0 : vec).
  Hypothesis Hmu : 0 < mu.
  Hypothesis Hh : cross r0 v0 <> vzero.
  Let rz : r0 <> vzero. Proof using Hh. exact (vec_nonzero_l _ _ Hh). Qed.
  Let al := alpha_of (vector_norm r0) (vector_norm v0) mu.
  Let sg := sigma_fn r0 v0 mu.
  Let n0 := vector_norm r0.
  (** The solver on a time that carries derivative 1. *)
  Definition chiD (t : R) : dual := @solve_kepler_uni _ Num_D (mkD t 1) (konst al) (konst n0) (konst sg) (konst mu) (@default_tol _ Num_D) uni_max_iter.
  Lemma chiD_val t : val (chiD t) = solve_kepler_uni t al n0 sg mu default_tol uni_max_iter.
  Proof using.
    pose proof (@hom_solve _ _ Num_D Num_R val hom_val [mkD t 1] (konst al) (konst n0) (konst sg) (konst mu)) as E.
    rewrite !vmap_solve_eq in E. cbn [map] in E. injection E as E. symmetry. exact E.
  Qed.
  Lemma kepler_D ts : @kepler _ Num_D (map (fun t => mkD t 1) ts) (vmap3 konst r0) (vmap3 konst v0) (konst mu)
    = map (fun t => @state_at_chi _ Num_D (chiD t) (konst al) (konst sg) (konst n0) (vmap3 konst r0) (vmap3 konst v0) (konst mu)) ts.
  Proof using.
    rewrite kepler_map, map_map. apply map_ext. intros t. unfold kepler1. cbv zeta.
    rewrite <- !(@hom_norm _ _ Num_R Num_D konst hom_konst), <- (@hom_alpha _ _ Num_R Num_D konst hom_konst), <- (@hom_sigma _ _ Num_R Num_D konst hom_konst). reflexivity.
  Qed.
  Lemma line_der (a b : R) : carries (fun u : R => a + u * b) 0 (mkD a b).
  Proof using.
    split; [cbn; ring|]. cbn [tang]. eapply der_eq; [apply (der_plus (fun _ => a) (fun u => u * b)); [apply der_const|apply der_scal_r, der_id]|ring].
  Qed.
  Lemma vd_pos (chi : R) : vderive (posS r0 v0 mu) chi (smul (radS r0 v0 mu chi / sqrt mu) (velS r0 v0 mu chi)) /\
    vderive (velS r0 v0 mu) chi (smul (radS r0 v0 mu chi / sqrt mu) (gravity mu (posS r0 v0 mu chi))).
  Proof using Hmu Hh.
    pose proof (motion r0 v0 mu Hmu Hh (timeS r0 v0 mu chi / sqrt mu)) as (_ & A & B).
    destruct (state_on_motion r0 v0 mu Hmu Hh chi) as [P V]. rewrite <- P in B. rewrite <- V in A.
    assert (D : is_derive (fun x => timeS r0 v0 mu x / sqrt mu) chi (radS r0 v0 mu chi / sqrt mu)).
    { unfold Rdiv. apply der_scal_r, timeS_der. }
    assert (C : forall (f g : R -> R) l, (forall x, f x = g (timeS r0 v0 mu x / sqrt mu)) -> is_derive g (timeS r0 v0 mu chi / sqrt mu) l -> is_derive f chi (radS r0 v0 mu chi / sqrt mu * l)).
    { intros f g l E G. apply (is_derive_ext (fun x => g (timeS r0 v0 mu x / sqrt mu))); [intros x; now rewrite E|]. apply (der_comp g (fun x => timeS r0 v0 mu x / sqrt mu)); assumption. }
    split.
    - destruct A as (A0 & A1 & A2). split; [|split]; (eapply C; [|eassumption]; intros x; cbv beta; now rewrite (proj1 (state_on_motion r0 v0 mu Hmu Hh x))).
    - destruct B as (A0 & A1 & A2). split; [|split]; (eapply C; [|eassumption]; intros x; cbv beta; now rewrite (proj2 (state_on_motion r0 v0 mu Hmu Hh x))).
  Qed.
  Lemma row_D (X : dual) :
    let o := @state_at_chi _ Num_D X (konst al) (konst sg) (konst n0) (vmap3 konst r0) (vmap3 konst v0) (konst mu) in
    let r := posS r0 v0 mu (val X) in let v := velS r0 v0 mu (val X) in
    let k := tang X * radS r0 v0 mu (val X) / sqrt mu in
    vval (fst o) = r /\ vval (snd o) = v /\ vtang (fst o) = smul k v /\ vtang (snd o) = smul k (gravity mu r).
  Proof using Hmu Hh.
    destruct X as [a b]. cbn [val tang]. cbv zeta.
    destruct (at_state 0 (fun u : R => a + u * b) (mkD a b) al (line_der a b) r0 v0 mu sg n0) as [P V].
    - now apply norm_neq.
    - assumption.
    - unfold al, n0, sg. rewrite dchi_S. now apply radS_neq.
    - set (o := @state_at_chi _ Num_D (mkD a b) (konst al) (konst sg) (konst n0) (vmap3 konst r0) (vmap3 konst v0) (konst mu)) in *.
      assert (E : forall u : R, state_at_chi (a + u * b) al sg n0 r0 v0 mu = (posS r0 v0 mu (a + u * b), velS r0 v0 mu (a + u * b))) by (intros u; apply state_at_chi_S).
      assert (A0 : a + 0 * b = a) by ring.
      destruct (vd_pos a) as [Dp Dv].
      assert (C : forall (f : R -> vec) l, vderive f a l -> vderive (fun u : R => f (a + u * b)) 0 (smul b l)).
      { intros f l (F0 & F1 & F2). assert (L : is_derive (fun u : R => a + u * b) 0 b) by exact (proj2 (line_der a b)).
        split; [|split]; cbn [smul c0 c1 c2]; [apply (der_comp (fun x => c0 (f x)) (fun u => a + u * b))|apply (der_comp (fun x => c1 (f x)) (fun u => a + u * b))|apply (der_comp (fun x => c2 (f x)) (fun u => a + u * b))];
          first [rewrite A0; assumption|assumption]. }
      assert (P' : vcarries (fun u : R => posS r0 v0 mu (a + u * b)) 0 (fst o)).
      { destruct P as (P0 & P1 & P2). split; [|split]; eapply a_ext; try eassumption; intros u; cbv beta; now rewrite E. }
      assert (V' : vcarries (fun u : R => velS r0 v0 mu (a + u * b)) 0 (snd o)).
      { destruct V as (P0 & P1 & P2). split; [|split]; eapply a_ext; try eassumption; intros u; cbv beta; now rewrite E. }
      assert (M : forall k (x : vec), smul b (smul (k / sqrt mu) x) = smul (b * k / sqrt mu) x).
      { intros k x. unfold smul; cbn [c0 c1 c2]. apply mk3_eq; unfold Rdiv; ring. }
      split; [|split; [|split]].
      + pose proof (vc_eq _ _ _ P') as Q. cbv beta in Q. now rewrite A0 in Q.
      + pose proof (vc_eq _ _ _ V') as Q. cbv beta in Q. now rewrite A0 in Q.
      + rewrite <- M. exact (vd_uniq _ _ _ _ (vc_der _ _ _ P') (C _ _ Dp)).
      + rewrite <- M. exact (vd_uniq _ _ _ _ (vc_der _ _ _ V') (C _ _ Dv)).
  Qed.

  (** Newton's method on a pair. *)
  Lemma keq_D t (X : dual) : @kepler_equ_uni _ Num_D X (konst al) (konst n0) (konst sg) (mkD t 1) (konst mu)
    = mkD (timeS r0 v0 mu (val X) - sqrt mu * t) (tang X * radS r0 v0 mu (val X) - sqrt mu).
  Proof using.
    destruct X as [x d]. cbn [val tang].
    destruct (at_keq 0 (fun u : R => x + u * d) (mkD x d) al (line_der x d) n0 sg (fun u : R => t + u * 1) (mkD t 1) mu (line_der t 1)) as [A B].
    set (o := @kepler_equ_uni _ Num_D _ _ _ _ _ _) in *. destruct o as [a b]. cbn [val tang] in A, B. apply D_eq.
    - rewrite <- A. unfold al, n0, sg. rewrite kepler_equ_uni_S. f_equal; f_equal; ring.
    - assert (C : is_derive (fun u : R => kepler_equ_uni (x + u * d) al n0 sg (t + u * 1) mu) 0 (d * radS r0 v0 mu x - sqrt mu)).
      { apply (is_derive_ext (fun u : R => timeS r0 v0 mu (x + u * d) - sqrt mu * (t + u * 1))); [intros u; unfold al, n0, sg; now rewrite kepler_equ_uni_S|].
        eapply der_eq; [apply (der_minus (fun u : R => timeS r0 v0 mu (x + u * d)) (fun u : R => sqrt mu * (t + u * 1)));
          [apply (der_comp (timeS r0 v0 mu) (fun u : R => x + u * d)); [apply timeS_der|apply (line_der x d)]|apply der_scal, (line_der t 1)]|].
        cbn [tang]. replace (x + 0 * d) with x by ring. ring. }
      rewrite <- (is_derive_unique _ _ _ B); exact (is_derive_unique _ _ _ C).
  Qed.
  Lemma dchi_D (X : dual) : @dchi _ Num_D X (konst al) (konst n0) (konst sg)
    = mkD (radS r0 v0 mu (val X)) (tang X * sigS r0 v0 mu (val X)).
  Proof using.
    destruct X as [x d]. cbn [val tang].
    destruct (at_dchi 0 (fun u : R => x + u * d) (mkD x d) al (line_der x d) n0 sg) as [A B].
    set (o := @dchi _ Num_D _ _ _ _) in *. destruct o as [a b]. cbn [val tang] in A, B. apply D_eq.
    - rewrite <- A. unfold al, n0, sg. rewrite dchi_S. f_equal; ring.
    - assert (C : is_derive (fun u : R => dchi (x + u * d) al n0 sg) 0 (d * sigS r0 v0 mu x)).
      { apply (is_derive_ext (fun u : R => radS r0 v0 mu (x + u * d))); [intros u; unfold al, n0, sg; now rewrite dchi_S|].
        eapply der_eq; [apply (der_comp (radS r0 v0 mu) (fun u : R => x + u * d)); [apply radS_der|apply (line_der x d)]|].
        cbn [tang]. replace (x + 0 * d) with x by ring. ring. }
      rewrite <- (is_derive_unique _ _ _ B); exact (is_derive_unique _ _ _ C).
  Qed.
  Lemma newton_D t (X : dual) : let x := val X in let f := timeS r0 v0 mu x - sqrt mu * t in let r := radS r0 v0 mu x in
    @uni_newton _ Num_D (mkD t 1) (konst al) (konst n0) (konst sg) (konst mu) X
    = mkD (x - f / r) ((sqrt mu + f * sigS r0 v0 mu x * tang X / r) / r).
  Proof using Hmu Hh.
    cbv zeta. unfold uni_newton. rewrite keq_D, dchi_D. cbn. apply D_eq; [reflexivity|].
    field. now apply radS_neq.
  Qed.
  Lemma guess_D t : @uni_guess _ Num_D (mkD t 1) (konst al) (konst mu) = mkD (sqrt mu * Rabs (alphaS r0 v0 mu) * t) (sqrt mu * Rabs (alphaS r0 v0 mu)).
  Proof using.
    unfold uni_guess. assert (Ea : al = alphaS r0 v0 mu) by exact (alpha_of_S r0 v0 mu). rewrite Ea. cbn. apply D_eq; unfold Rdiv; ring.
  Qed.
  (** The rate factor of the iterates: 1 would be the true time derivative. *)
  Definition fac (X : dual) : R := tang X * radS r0 v0 mu (val X) / sqrt mu.
  Lemma fac_step t (X : dual) :
    let Y := @uni_newton _ Num_D (mkD t 1) (konst al) (konst n0) (konst sg) (konst mu) X in
    let x := val X in let f := timeS r0 v0 mu x - sqrt mu * t in let r := radS r0 v0 mu x in
    val Y = x - f / r /\ fac Y = radS r0 v0 mu (val Y) / r * (1 + f * sigS r0 v0 mu x / r ^ 2 * fac X).
  Proof using Hmu Hh.
    cbv zeta. rewrite newton_D. unfold fac. cbn [val tang]. split; [reflexivity|].
    pose proof (sqrt_pos_neq mu Hmu). assert (radS r0 v0 mu (val X) <> 0) by now apply radS_neq. field. auto.
  Qed.
  Lemma rate_rows ts i t : nth_error ts i = Some t ->
    exists o (n : nat) (x k : nat -> R), (n <= 50)%nat /\
      nth_error (@kepler _ Num_D (map (fun t => mkD t 1) ts) (vmap3 konst r0) (vmap3 konst v0) (konst mu)) i = Some o /\
      nth_error (kepler ts r0 v0 mu) i = Some (vval (fst o), vval (snd o)) /\
      vtang (fst o) = smul (k n) (vval (snd o)) /\ vtang (snd o) = smul (k n) (gravity mu (vval (fst o))) /\
      x 0%nat = sqrt mu * Rabs (alphaS r0 v0 mu) * t /\ k 0%nat = Rabs (alphaS r0 v0 mu) * radS r0 v0 mu (x 0%nat) /\
      (forall j, x (S j) = x j - (timeS r0 v0 mu (x j) - sqrt mu * t) / radS r0 v0 mu (x j) /\
        k (S j) = radS r0 v0 mu (x (S j)) / radS r0 v0 mu (x j) * (1 + (timeS r0 v0 mu (x j) - sqrt mu * t) * sigS r0 v0 mu (x j) / radS r0 v0 mu (x j) ^ 2 * k j)) /\
      (forall j, (j < n)%nat -> / 1000000 < Rabs (timeS r0 v0 mu (x j) - sqrt mu * t)) /\
      (n = 50%nat \/ Rabs (timeS r0 v0 mu (x n) - sqrt mu * t) <= / 1000000).
  Proof using Hmu Hh.
    intros Hi.
    destruct (@uni_char _ Num_D (mkD t 1) (konst al) (konst n0) (konst sg) (konst mu) (@default_tol _ Num_D) uni_max_iter) as [n [Hn [E [L F]]]].
    cbv zeta in E, L, F. fold (chiD t) in E.
    set (Xs j := iterate (@uni_newton _ Num_D (mkD t 1) (konst al) (konst n0) (konst sg) (konst mu)) j (@uni_guess _ Num_D (mkD t 1) (konst al) (konst mu))) in *.
    assert (EX : forall X, @exceeds _ Num_D (@kepler_equ_uni _ Num_D X (konst al) (konst n0) (konst sg) (mkD t 1) (konst mu)) (@default_tol _ Num_D)
      = exceeds (timeS r0 v0 mu (val X) - sqrt mu * t) (default_tol)).
    { intros X. rewrite keq_D. reflexivity. }
    assert (IT : forall j, Xs (S j) = @uni_newton _ Num_D (mkD t 1) (konst al) (konst n0) (konst sg) (konst mu) (Xs j)) by reflexivity.
    eexists _, n, (fun j => val (Xs j)), (fun j => fac (Xs j)).
    split; [exact Hn|]. split; [rewrite kepler_D, nth_error_map, Hi; reflexivity|].
    destruct (row_D (chiD t)) as (A & B & C & D). cbv zeta in *.
    split; [|split; [|split; [|split; [|split; [|split; [|split]]]]]].
    - rewrite A, B, chiD_val, kepler_map, nth_error_map, Hi. cbn [option_map]. f_equal. exact (state_at_chi_S _ r0 v0 mu).
    - rewrite C, B, E. reflexivity.
    - rewrite D, A, E. reflexivity.
    - unfold Xs. cbn [iterate]. now rewrite guess_D.
    - unfold fac, Xs. cbn [iterate]. rewrite guess_D. cbn [val tang]. pose proof (sqrt_pos_neq mu Hmu). field. assumption.
    - intros j. rewrite !IT. destruct (fac_step t (Xs j)) as [P Q]. cbv zeta in P, Q. split; [exact P|]. rewrite Q. rewrite P. reflexivity.
    - intros j Hj. specialize (L j Hj). rewrite EX in L. apply exceeds_R in L. now rewrite default_tol_R in L.
    - destruct F as [F|F]; [left; exact F|right]. rewrite EX in F. apply exceeds_R_false in F. now rewrite default_tol_R in F.
  Qed.
End Rate.
