(** * TwoBody: uniqueness of the two-body motion, flow properties (proofs for C14, C15) *)
From Coq Require Import Reals Lra Lia Psatz.
From Coquelicot Require Import Coquelicot.
From Verif Require Import Num NumR Spec RLib Ana OrbIntegrals SeriesU UFacts OrbFacts KepState KepMotion.
Local Open Scope R_scope.

(** ** Derivatives of vector expressions *)
Lemma dot_der (a b : R -> vec) (t : R) (a' b' : vec) : vderive a t a' -> vderive b t b' ->
  is_derive (fun s => dot (a s) (b s)) t (dot a' (b t) + dot (a t) b').
Proof.
  intros [A0 [A1 A2]] [B0 [B1 B2]]. unfold dot.
  eapply der_eq.
  - apply der_plus; [apply der_plus|]; apply der_mult; eassumption.
  - cbv beta. ring.
Qed.
Lemma vnorm_der (a : R -> vec) (t : R) (a' : vec) : vderive a t a' -> a t <> vzero ->
  is_derive (fun s => vnorm (a s)) t (dot (a t) a' / vnorm (a t)).
Proof.
  intros A N. unfold vnorm. eapply der_eq.
  - apply der_sqrt; [apply (dot_der a a t a' a' A A)|now apply dot_pos].
  - cbv beta. rewrite (dot_comm a' (a t)). fold (vnorm (a t)). pose proof (vnorm_pos _ N). field. lra.
Qed.
Lemma vd_plus (a b : R -> vec) (t : R) (a' b' : vec) : vderive a t a' -> vderive b t b' ->
  vderive (fun s => vplus (a s) (b s)) t (vplus a' b').
Proof.
  intros [A0 [A1 A2]] [B0 [B1 B2]]. unfold vplus. split; [|split]; cbn [c0 c1 c2]; now apply der_plus.
Qed.
Lemma vd_minus (a b : R -> vec) (t : R) (a' b' : vec) : vderive a t a' -> vderive b t b' ->
  vderive (fun s => vminus (a s) (b s)) t (vminus a' b').
Proof.
  intros [A0 [A1 A2]] [B0 [B1 B2]]. unfold vminus. split; [|split]; cbn [c0 c1 c2]; now apply der_minus.
Qed.
Lemma vd_smul (f : R -> R) (a : R -> vec) (t f' : R) (a' : vec) : is_derive f t f' -> vderive a t a' ->
  vderive (fun s => smul (f s) (a s)) t (vplus (smul f' (a t)) (smul (f t) a')).
Proof.
  intros F [A0 [A1 A2]]. unfold smul, vplus. split; [|split]; cbn [c0 c1 c2]; now apply der_mult.
Qed.
Lemma vd_eq (f : R -> vec) (t : R) (a b : vec) : vderive f t a -> a = b -> vderive f t b.
Proof. now intros H <-. Qed.
Lemma vd_zero_const (f : R -> vec) : (forall t, vderive f t vzero) -> forall s t, f s = f t.
Proof.
  intros H s t. apply V3_eq.
  - apply (der_zero_const (fun x => c0 (f x))). intros x. apply (H x).
  - apply (der_zero_const (fun x => c1 (f x))). intros x. apply (H x).
  - apply (der_zero_const (fun x => c2 (f x))). intros x. apply (H x).
Qed.

Lemma inv_comb_zero k g gt r v :
  vminus (vplus (smul (k * g) r) (smul gt v)) (vplus (smul gt v) (smul g (smul k r))) = vzero.
Proof. vring. Qed.
Lemma inv_comb_zero' k f ft r v :
  vminus (vplus (smul ft v) (smul f (smul k r))) (vplus (smul (k * f) r) (smul ft v)) = vzero.
Proof. vring. Qed.
Lemma inv_comb f g ft gt r v : f * gt - g * ft = 1 ->
  vplus (smul f (vminus (smul gt r) (smul g v))) (smul g (vminus (smul f v) (smul ft r))) = r.
Proof.
  intros D. transitivity (smul (f * gt - g * ft) r).
  - clear D. vring.
  - rewrite D. apply smul_1.
Qed.
Lemma inv_comb' f g ft gt r v : f * gt - g * ft = 1 ->
  vplus (smul ft (vminus (smul gt r) (smul g v))) (smul gt (vminus (smul f v) (smul ft r))) = v.
Proof.
  intros D. transitivity (smul (f * gt - g * ft) v).
  - clear D. vring.
  - rewrite D. apply smul_1.
Qed.

Section Unique.
  Variables (r0 v0 : vec) (mu : R) (r v : R -> vec).
  Hypothesis Hmu : 0 < mu.
  Hypothesis Hh : cross r0 v0 <> vzero.
  Hypothesis Hm : two_body_motion mu r v.
  Hypothesis Hr : r 0 = r0.
  Hypothesis Hv : v 0 = v0.
  Let n0 := vnorm r0.
  Let al := alphaS r0 v0 mu.
  Let s0 := sigmaS r0 v0 mu.
  Let rho t := vnorm (r t).
  Let sg t := sigmaS (r t) (v t) mu.

  Lemma rho_pos t : 0 < rho t.
  Proof. apply vnorm_pos, (Hm t). Qed.
  Lemma gr_dot t w : dot w (gravity mu (r t)) = - (mu / rho t ^ 3) * dot w (r t).
  Proof. unfold gravity. apply dot_smul_r. Qed.

  Lemma rho_der (t : R) : is_derive rho t (sqrt mu * sg t / rho t).
  Proof.
    destruct (Hm t) as [N [D _]]. eapply der_eq; [apply (vnorm_der r t (v t) D N)|].
    unfold sg, sigmaS, rho. pose proof (sqrt_pos_neq mu Hmu). pose proof (vnorm_pos _ N). field. lra.
  Qed.
  Lemma alpha_const t : alphaS (r t) (v t) mu = al.
  Proof.
    unfold al. rewrite <- Hr, <- Hv.
    apply (der_zero_const (fun t => alphaS (r t) (v t) mu)). intros x.
    destruct (Hm x) as [N [Dr Dv]]. pose proof (rho_pos x) as P. unfold alphaS.
    eapply der_eq.
    - apply der_minus.
      + apply (der_div (fun _ => 2) (fun t => vnorm (r t))); [apply der_const|apply (vnorm_der r x (v x) Dr N)|].
        fold (rho x). lra.
      + apply (der_div (fun t => vnorm (v t) ^ 2) (fun _ => mu)); [|apply der_const|lra].
        apply (der_ext (fun t => dot (v t) (v t))); [intros; symmetry; apply vnorm_sq2|].
        apply (dot_der v v x _ _ Dv Dv).
    - cbv beta. rewrite (dot_comm (gravity _ _)), gr_dot, (dot_comm (v x)). fold (rho x). field. lra.
  Qed.
  Lemma v_sq t : dot (v t) (v t) = mu * (2 / rho t - al).
  Proof.
    rewrite <- (alpha_const t). unfold alphaS. rewrite <- vnorm_sq2. pose proof (rho_pos t). fold (rho t).
    field. lra.
  Qed.
  Lemma sg_der (t : R) : is_derive sg t (sqrt mu * (1 - al * rho t) / rho t).
  Proof.
    destruct (Hm t) as [N [Dr Dv]]. unfold sg, sigmaS.
    pose proof (sqrt_pos_neq mu Hmu) as Q. pose proof (rho_pos t) as P.
    eapply der_eq.
    - apply (der_div (fun t => dot (r t) (v t)) (fun _ => sqrt mu)); [|apply der_const|exact Q].
      apply (dot_der r v t _ _ Dr Dv).
    - cbv beta. rewrite gr_dot, v_sq. fold (rho t). replace (dot (r t) (r t)) with (rho t ^ 2) by apply vnorm_sq2.
      pose proof (sm_sq mu Hmu) as M. set (m := sqrt mu) in *. rewrite <- M. field. lra.
  Qed.
  Let ch t := al * sqrt mu * t + sg t - s0.
  Lemma ch_der (t : R) : is_derive ch t (sqrt mu / rho t).
  Proof.
    unfold ch. pose proof (rho_pos t). eapply der_eq.
    - apply der_minus; [|apply der_const]. apply der_plus; [apply der_scal, der_id|apply sg_der].
    - cbv beta. field. lra.
  Qed.
  Lemma sg_0 : sg 0 = s0.
  Proof. unfold sg, s0. now rewrite Hr, Hv. Qed.
  Lemma rho_0 : rho 0 = n0.
  Proof. unfold rho, n0. now rewrite Hr. Qed.
  Lemma ch_0 : ch 0 = 0.
  Proof. unfold ch. rewrite sg_0. ring. Qed.

  Lemma Uc_der (n : nat) (d t : R) : is_derive (fun x => U n x al) (ch t) d ->
    is_derive (fun t => U n (ch t) al) t (sqrt mu / rho t * d).
  Proof. intros H. apply (der_comp (fun x => U n x al) ch); [exact H|apply ch_der]. Qed.

  Lemma cA t : (1 - al * rho t) * U 0 (ch t) al + al * sg t * U 1 (ch t) al = 1 - al * n0.
  Proof.
    transitivity ((1 - al * rho 0) * U 0 (ch 0) al + al * sg 0 * U 1 (ch 0) al).
    - apply (der_zero_const (fun t => (1 - al * rho t) * U 0 (ch t) al + al * sg t * U 1 (ch t) al)).
      intros x. pose proof (rho_pos x). eapply der_eq.
      + apply der_plus.
        * apply (der_mult (fun t => 1 - al * rho t) (fun t => U 0 (ch t) al)).
          -- apply der_minus; [apply der_const|apply der_scal, rho_der].
          -- apply Uc_der, U_dchi_0.
        * apply (der_mult (fun t => al * sg t) (fun t => U 1 (ch t) al)).
          -- apply der_scal, sg_der.
          -- apply Uc_der, U_dchi.
      + cbv beta. field. lra.
    - rewrite ch_0, !U_zero, rho_0. simpl. ring.
  Qed.
  Lemma cB t : sg t * U 0 (ch t) al - (1 - al * rho t) * U 1 (ch t) al = s0.
  Proof.
    transitivity (sg 0 * U 0 (ch 0) al - (1 - al * rho 0) * U 1 (ch 0) al).
    - apply (der_zero_const (fun t => sg t * U 0 (ch t) al - (1 - al * rho t) * U 1 (ch t) al)).
      intros x. pose proof (rho_pos x). eapply der_eq.
      + apply der_minus.
        * apply (der_mult sg (fun t => U 0 (ch t) al)).
          -- apply sg_der.
          -- apply Uc_der, U_dchi_0.
        * apply (der_mult (fun t => 1 - al * rho t) (fun t => U 1 (ch t) al)).
          -- apply der_minus; [apply der_const|apply der_scal, rho_der].
          -- apply Uc_der, U_dchi.
      + cbv beta. field. lra.
    - rewrite ch_0, !U_zero, sg_0. simpl. ring.
  Qed.
  Lemma sg_eq t : sg t = sigS r0 v0 mu (ch t).
  Proof.
    unfold sigS. fold n0 al s0. rewrite <- (cA t), <- (cB t).
    transitivity (sg t * (U 0 (ch t) al ^ 2 + al * U 1 (ch t) al ^ 2)).
    - rewrite U_pyth. ring.
    - ring.
  Qed.
  Lemma rho_eq t : rho t = radS r0 v0 mu (ch t).
  Proof.
    assert (E : rho t - radS r0 v0 mu (ch t) = rho 0 - radS r0 v0 mu (ch 0)).
    { apply (der_zero_const (fun t => rho t - radS r0 v0 mu (ch t))). intros x. pose proof (rho_pos x).
      eapply der_eq.
      - apply der_minus; [apply rho_der|].
        apply (der_comp (radS r0 v0 mu) ch); [apply radS_der|apply ch_der].
      - cbv beta. rewrite sg_eq. field. lra. }
    rewrite ch_0, rho_0 in E.
    destruct (posS_0 r0 v0 mu Hmu (Hr0 r0 v0 Hh)) as [_ [_ [Q _]]]. rewrite Q in E. unfold n0 in E. lra.
  Qed.
  Lemma ch_eq t : ch t = chiS r0 v0 mu Hmu Hh t.
  Proof.
    apply chiS_unique.
    assert (E : timeS r0 v0 mu (ch t) - sqrt mu * t = timeS r0 v0 mu (ch 0) - sqrt mu * 0).
    { apply (der_zero_const (fun t => timeS r0 v0 mu (ch t) - sqrt mu * t)). intros x. pose proof (rho_pos x).
      eapply der_eq.
      - apply der_minus; [|apply der_scal, der_id].
        apply (der_comp (timeS r0 v0 mu) ch); [apply timeS_der|apply ch_der].
      - cbv beta. rewrite <- rho_eq. field. lra. }
    rewrite ch_0 in E.
    destruct (posS_0 r0 v0 mu Hmu (Hr0 r0 v0 Hh)) as [_ [_ [_ Q]]]. rewrite Q in E. lra.
  Qed.
  Lemma rho_chi t : vnorm (r t) = radS r0 v0 mu (chiS r0 v0 mu Hmu Hh t).
  Proof. rewrite <- ch_eq. apply rho_eq. Qed.

  Lemma gr_rad t : gravity mu (r t)
    = smul (- (mu / radS r0 v0 mu (chiS r0 v0 mu Hmu Hh t) ^ 3)) (r t).
  Proof. unfold gravity. now rewrite rho_chi. Qed.

  Let F t := FS r0 v0 mu (chiS r0 v0 mu Hmu Hh t).
  Let G t := GS r0 v0 mu (chiS r0 v0 mu Hmu Hh t).
  Let Ft t := FtS r0 v0 mu (chiS r0 v0 mu Hmu Hh t).
  Let Gt t := GtS r0 v0 mu (chiS r0 v0 mu Hmu Hh t).

  Lemma at0 : F 0 = 1 /\ G 0 = 0 /\ Ft 0 = 0 /\ Gt 0 = 1.
  Proof.
    unfold F, G, Ft, Gt. rewrite chiS_0. unfold FS, GS, FtS, GtS. rewrite !U_zero. simpl.
    pose proof (n0_neq r0 v0 Hh). pose proof (sqrt_pos_neq mu Hmu). pose proof (rad_neq r0 v0 mu Hmu Hh 0).
    repeat split; field; auto.
  Qed.
  Lemma comb_at0 a b : vminus (smul 1 a) (smul 0 b) = a.
  Proof. clear. vring. Qed.

  Lemma back_r t : vminus (smul (Gt t) (r t)) (smul (G t) (v t)) = r0.
  Proof.
    transitivity (vminus (smul (Gt 0) (r 0)) (smul (G 0) (v 0))).
    - apply (vd_zero_const (fun t => vminus (smul (Gt t) (r t)) (smul (G t) (v t)))). intros x.
      destruct (Hm x) as [N [Dr Dv]]. eapply vd_eq.
      + apply vd_minus; apply vd_smul; [apply Gt_t|exact Dr|apply G_t|exact Dv].
      + rewrite gr_rad. apply inv_comb_zero.
    - destruct at0 as [A [B [C D]]]. rewrite B, D, Hr, Hv. apply comb_at0.
  Qed.
  Lemma back_v t : vminus (smul (F t) (v t)) (smul (Ft t) (r t)) = v0.
  Proof.
    transitivity (vminus (smul (F 0) (v 0)) (smul (Ft 0) (r 0))).
    - apply (vd_zero_const (fun t => vminus (smul (F t) (v t)) (smul (Ft t) (r t)))). intros x.
      destruct (Hm x) as [N [Dr Dv]]. eapply vd_eq.
      + apply vd_minus; apply vd_smul; [apply F_t|exact Dv|apply Ft_t|exact Dr].
      + rewrite gr_rad. apply (inv_comb_zero' _ (F x) (Ft x)).
    - destruct at0 as [A [B [C D]]]. rewrite A, C, Hr, Hv. apply comb_at0.
  Qed.

  Lemma motion_unique t : r t = rM r0 v0 mu Hmu Hh t /\ v t = vM r0 v0 mu Hmu Hh t.
  Proof.
    pose proof (det1 r0 v0 mu Hmu (Hr0 r0 v0 Hh) _ (rad_neq r0 v0 mu Hmu Hh (chiS r0 v0 mu Hmu Hh t))) as D.
    pose proof (back_r t) as A. pose proof (back_v t) as B.
    unfold rM, vM, posS, velS. fold (F t) (G t) (Ft t) (Gt t) in *. split.
    - transitivity (vplus (smul (F t) (vminus (smul (Gt t) (r t)) (smul (G t) (v t))))
                          (smul (G t) (vminus (smul (F t) (v t)) (smul (Ft t) (r t))))).
      + symmetry. now apply inv_comb.
      + now rewrite A, B.
    - transitivity (vplus (smul (Ft t) (vminus (smul (Gt t) (r t)) (smul (G t) (v t))))
                          (smul (Gt t) (vminus (smul (F t) (v t)) (smul (Ft t) (r t))))).
      + symmetry. now apply inv_comb'.
      + now rewrite A, B.
  Qed.
End Unique.

(** ** Flow properties *)
Lemma shift_motion mu (r v : R -> vec) s : two_body_motion mu r v ->
  two_body_motion mu (fun t => r (s + t)) (fun t => v (s + t)).
Proof.
  intros H t. destruct (H (s + t)) as [N [[A0 [A1 A2]] [B0 [B1 B2]]]].
  assert (C : forall (f : R -> R) (d : R), is_derive f (s + t) d -> is_derive (fun t => f (s + t)) t d).
  { intros f d D. eapply der_eq.
    - apply (der_comp f (fun t => s + t)); [exact D|]. apply der_plus; [apply der_const|apply der_id].
    - ring. }
  split; [exact N|]. split; (split; [|split]).
  - now apply (C (fun x => c0 (r x))).
  - now apply (C (fun x => c1 (r x))).
  - now apply (C (fun x => c2 (r x))).
  - now apply (C (fun x => c0 (v x))).
  - now apply (C (fun x => c1 (v x))).
  - now apply (C (fun x => c2 (v x))).
Qed.

Lemma unique_motion mu (r v r' v' : R -> vec) : 0 < mu ->
  two_body_motion mu r v -> two_body_motion mu r' v' ->
  r 0 = r' 0 -> v 0 = v' 0 -> cross (r 0) (v 0) <> vzero ->
  forall t, r t = r' t /\ v t = v' t.
Proof.
  intros Hmu H H' Er Ev Hh t.
  destruct (motion_unique (r 0) (v 0) mu r v Hmu Hh H eq_refl eq_refl t) as [A B].
  destruct (motion_unique (r 0) (v 0) mu r' v' Hmu Hh H' (eq_sym Er) (eq_sym Ev) t) as [C D].
  split; congruence.
Qed.

Lemma unique_motion_at mu (r v r' v' : R -> vec) s : 0 < mu ->
  two_body_motion mu r v -> two_body_motion mu r' v' ->
  r s = r' s -> v s = v' s -> cross (r s) (v s) <> vzero ->
  forall t, r t = r' t /\ v t = v' t.
Proof.
  intros Hmu H H' Er Ev Hh t.
  pose proof (unique_motion mu _ _ _ _ Hmu (shift_motion mu r v s H) (shift_motion mu r' v' s H')) as Q.
  cbv beta in Q. rewrite Rplus_0_r in Q. specialize (Q Er Ev Hh (t - s)).
  replace (s + (t - s)) with t in Q by ring. exact Q.
Qed.

Lemma motion_h mu (r v : R -> vec) t : two_body_motion mu r v -> cross (r t) (v t) = cross (r 0) (v 0).
Proof.
  intros H. apply (vd_zero_const (fun t => cross (r t) (v t))). intros x.
  destruct (H x) as [_ [[A0 [A1 A2]] [B0 [B1 B2]]]]. unfold cross.
  unfold gravity, smul in B0, B1, B2. cbn [c0 c1 c2] in B0, B1, B2.
  split; [|split]; cbn [c0 c1 c2 vzero];
    (eapply der_eq; [apply der_minus; apply der_mult; eassumption|cbv beta; ring]).
Qed.

Lemma motion_compose mu (r v r' v' : R -> vec) s : 0 < mu ->
  two_body_motion mu r v -> two_body_motion mu r' v' ->
  cross (r 0) (v 0) <> vzero -> r' 0 = r s -> v' 0 = v s ->
  forall t, r' t = r (s + t) /\ v' t = v (s + t).
Proof.
  intros Hmu H H' Hh Er Ev t.
  apply (unique_motion mu r' v' (fun t => r (s + t)) (fun t => v (s + t)) Hmu H' (shift_motion mu r v s H)).
  - now rewrite Rplus_0_r.
  - now rewrite Rplus_0_r.
  - rewrite Er, Ev, (motion_h mu r v s H). exact Hh.
Qed.
