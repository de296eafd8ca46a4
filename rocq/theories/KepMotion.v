(** * KepMotion: the universal Kepler equation and Newton's equation (proofs for C14, C16) *)
From Coq Require Import Reals Lra Lia Psatz.
From Coquelicot Require Import Coquelicot.
From Verif Require Import Num NumR Spec RLib Ana OrbIntegrals SeriesU UFacts OrbFacts KepState.
Local Open Scope R_scope.

Section Derivs.
  Variables (r0 v0 : vec) (mu : R).
  Let n0 := vnorm r0.
  Let al := alphaS r0 v0 mu.
  Let s0 := sigmaS r0 v0 mu.

  Lemma U0_der (chi : R) : is_derive (fun x => U 0 x al) chi (- al * U 1 chi al).
  Proof. apply U_dchi_0. Qed.
  Lemma U1_der (chi : R) : is_derive (fun x => U 1 x al) chi (U 0 chi al).
  Proof. apply U_dchi. Qed.
  Lemma U2_der (chi : R) : is_derive (fun x => U 2 x al) chi (U 1 chi al).
  Proof. apply U_dchi. Qed.
  Lemma U3_der (chi : R) : is_derive (fun x => U 3 x al) chi (U 2 chi al).
  Proof. apply U_dchi. Qed.

  Lemma timeS_der (chi : R) : is_derive (timeS r0 v0 mu) chi (radS r0 v0 mu chi).
  Proof.
    unfold timeS, radS. fold n0 al s0.
    apply der_plus; [apply der_plus; apply der_scal|]; [apply U1_der|apply U2_der|apply U3_der].
  Qed.
  Lemma radS_der (chi : R) : is_derive (radS r0 v0 mu) chi (sigS r0 v0 mu chi).
  Proof.
    unfold sigS, radS. fold n0 al s0.
    eapply der_eq.
    - apply der_plus; [apply der_plus; apply der_scal|]; [apply U0_der|apply U1_der|apply U2_der].
    - ring.
  Qed.
  Lemma FS_der (chi : R) : vnorm r0 <> 0 -> is_derive (FS r0 v0 mu) chi (- U 1 chi al / n0).
  Proof.
    intros H. unfold FS. fold n0 al. eapply der_eq.
    - apply der_minus; [apply der_const|]. apply der_div; [apply U2_der|apply der_const|exact H].
    - cbv beta. field. exact H.
  Qed.
  Lemma GS_der (chi : R) : 0 < mu -> is_derive (GS r0 v0 mu) chi ((n0 * U 0 chi al + s0 * U 1 chi al) / sqrt mu).
  Proof.
    intros H. pose proof (sqrt_pos_neq mu H). unfold GS. fold n0 al s0. eapply der_eq.
    - apply der_div; [apply der_plus; apply der_scal; [apply U1_der|apply U2_der]|apply der_const|auto].
    - cbv beta. field. auto.
  Qed.
End Derivs.

Lemma comb_smul k f g r v :
  vplus (smul (k * f) r) (smul (k * g) v) = smul k (vplus (smul f r) (smul g v)).
Proof. vring. Qed.

Section Motion.
  Variables (r0 v0 : vec) (mu : R).
  Hypothesis Hmu : 0 < mu.
  Hypothesis Hh : cross r0 v0 <> vzero.
  Let n0 := vnorm r0.
  Let al := alphaS r0 v0 mu.
  Let s0 := sigmaS r0 v0 mu.

  Lemma Hr0 : r0 <> vzero.
  Proof. exact (vec_nonzero_l _ _ Hh). Qed.
  Lemma n0_neq : n0 <> 0.
  Proof. apply vnorm_neq, Hr0. Qed.

  (** positive lower bound of the radius *)
  Definition rmin_ : R :=
    radius_periapsis (semiparameter (vnorm (cross r0 v0)) mu) (vnorm (eccentricity_vector r0 v0 mu)).
  Lemma rmin_pos : 0 < rmin_.
  Proof.
    unfold rmin_. rewrite radius_periapsis_R. apply Rdiv_lt_0_compat.
    - apply p_pos; auto.
    - pose proof (vnorm_nonneg (eccentricity_vector r0 v0 mu)). lra.
  Qed.
  Lemma rmin_le chi : rmin_ <= radS r0 v0 mu chi.
  Proof. apply radS_lower; auto. apply Hr0. Qed.

  Lemma timeS_inj x y : timeS r0 v0 mu x = timeS r0 v0 mu y -> x = y.
  Proof. apply (bij_inj _ _ rmin_ rmin_pos (timeS_der r0 v0 mu) rmin_le). Qed.
  Lemma timeS_incr x y : x < y -> timeS r0 v0 mu x < timeS r0 v0 mu y.
  Proof. apply (bij_incr _ _ rmin_ rmin_pos (timeS_der r0 v0 mu) rmin_le). Qed.

  (** The root of the universal Kepler equation as a function of [sqrt mu * t]. *)
  Definition rootS (y : R) : R := proj1_sig (bij_root _ _ rmin_ rmin_pos (timeS_der r0 v0 mu) rmin_le y).
  Lemma rootS_spec (y : R) : timeS r0 v0 mu (rootS y) = y.
  Proof. unfold rootS. destruct (bij_root _ _ _ _ _ _ y) as [x E]. exact E. Qed.
  Lemma rootS_der (y : R) : is_derive rootS y (/ radS r0 v0 mu (rootS y)).
  Proof. apply (inv_derive _ _ rmin_ rmin_pos (timeS_der r0 v0 mu) rmin_le rootS rootS_spec). Qed.

  Definition chiS (t : R) : R := rootS (sqrt mu * t).
  Lemma chiS_spec t : timeS r0 v0 mu (chiS t) = sqrt mu * t.
  Proof. apply rootS_spec. Qed.
  Lemma chiS_unique t chi : timeS r0 v0 mu chi = sqrt mu * t -> chi = chiS t.
  Proof. intros H. apply timeS_inj. now rewrite chiS_spec. Qed.
  Lemma chiS_der (t : R) : is_derive chiS t (sqrt mu / radS r0 v0 mu (chiS t)).
  Proof.
    unfold chiS. eapply der_eq.
    - apply (der_comp rootS (fun t => sqrt mu * t)).
      + apply rootS_der.
      + apply der_scal, der_id.
    - cbv beta. field. apply radS_neq; auto. apply Hr0.
  Qed.
  Lemma chiS_0 : chiS 0 = 0.
  Proof.
    symmetry. apply chiS_unique. destruct (posS_0 r0 v0 mu Hmu Hr0) as [_ [_ [_ E]]]. rewrite E. ring.
  Qed.

  (** The motion. *)
  Definition rM (t : R) : vec := posS r0 v0 mu (chiS t).
  Definition vM (t : R) : vec := velS r0 v0 mu (chiS t).

  Lemma rad_neq chi : radS r0 v0 mu chi <> 0.
  Proof. apply radS_neq; auto. apply Hr0. Qed.

  Lemma F_t (t : R) : is_derive (fun t => FS r0 v0 mu (chiS t)) t (FtS r0 v0 mu (chiS t)).
  Proof.
    eapply der_eq.
    - apply (der_comp (FS r0 v0 mu) chiS); [apply FS_der, n0_neq|apply chiS_der].
    - cbv beta. unfold FtS. pose proof n0_neq. pose proof (rad_neq (chiS t)). field. split; auto.
  Qed.
  Lemma G_t (t : R) : is_derive (fun t => GS r0 v0 mu (chiS t)) t (GtS r0 v0 mu (chiS t)).
  Proof.
    eapply der_eq.
    - apply (der_comp (GS r0 v0 mu) chiS); [apply GS_der; auto|apply chiS_der].
    - cbv beta. unfold GtS. pose proof (rad_neq (chiS t)) as N. pose proof (sqrt_pos_neq mu Hmu).
      fold al.
      replace (1 - U 2 (chiS t) al / radS r0 v0 mu (chiS t))
        with ((radS r0 v0 mu (chiS t) - U 2 (chiS t) al) / radS r0 v0 mu (chiS t)) by (field; auto).
      unfold radS at 2. fold n0 al s0. field. split; auto.
  Qed.

  Lemma U0r_U1s chi : U 0 chi al * radS r0 v0 mu chi - U 1 chi al * sigS r0 v0 mu chi = n0 - U 2 chi al.
  Proof.
    unfold radS, sigS. fold n0 al s0.
    pose proof (uH0 r0 v0 mu chi) as A. pose proof (uH1 r0 v0 mu chi) as B. fold al in A, B.
    ring [A B].
  Qed.
  Lemma U1r_U2s chi : U 1 chi al * radS r0 v0 mu chi - U 2 chi al * sigS r0 v0 mu chi
    = n0 * U 1 chi al + s0 * U 2 chi al.
  Proof.
    unfold radS, sigS. fold n0 al s0.
    pose proof (uH0 r0 v0 mu chi) as A. pose proof (uH1 r0 v0 mu chi) as B. fold al in A, B.
    ring [A B].
  Qed.

  Lemma Ft_t (t : R) : is_derive (fun t => FtS r0 v0 mu (chiS t)) t
    (- (mu / radS r0 v0 mu (chiS t) ^ 3) * FS r0 v0 mu (chiS t)).
  Proof.
    pose proof (rad_neq (chiS t)) as N. pose proof (sqrt_pos_neq mu Hmu) as Q. pose proof n0_neq as P.
    eapply der_eq.
    - apply (der_comp (FtS r0 v0 mu) chiS); [|apply chiS_der].
      unfold FtS. fold al n0.
      apply (der_div (fun x => - sqrt mu / radS r0 v0 mu x * U 1 x al) (fun _ => n0)); [|apply der_const|exact P].
      apply (der_mult (fun x => - sqrt mu / radS r0 v0 mu x) (fun x => U 1 x al)); [|apply U1_der].
      apply (der_div (fun _ => - sqrt mu) (radS r0 v0 mu)); [apply der_const|apply radS_der|exact N].
    - cbv beta. fold al. unfold FS. fold al n0.
      pose proof (U0r_U1s (chiS t)) as E. set (x := chiS t) in *.
      set (r := radS r0 v0 mu x) in *. set (s := sigS r0 v0 mu x) in *.
      replace (1 - U 2 x al / n0) with ((n0 - U 2 x al) / n0) by (field; auto). rewrite <- E.
      pose proof (sm_sq mu Hmu) as M. clearbody r s.
      set (m := sqrt mu) in *. rewrite <- M. field. split; auto.
  Qed.
  Lemma Gt_t (t : R) : is_derive (fun t => GtS r0 v0 mu (chiS t)) t
    (- (mu / radS r0 v0 mu (chiS t) ^ 3) * GS r0 v0 mu (chiS t)).
  Proof.
    pose proof (rad_neq (chiS t)) as N. pose proof (sqrt_pos_neq mu Hmu) as Q. pose proof n0_neq as P.
    eapply der_eq.
    - apply (der_comp (GtS r0 v0 mu) chiS); [|apply chiS_der].
      unfold GtS. fold al.
      apply (der_minus (fun _ => 1) (fun x => U 2 x al / radS r0 v0 mu x)); [apply der_const|].
      apply (der_div (fun x => U 2 x al) (radS r0 v0 mu)); [apply U2_der|apply radS_der|exact N].
    - cbv beta. fold al. unfold GS. fold al n0 s0.
      pose proof (U1r_U2s (chiS t)) as E. set (x := chiS t) in *.
      set (r := radS r0 v0 mu x) in *. set (s := sigS r0 v0 mu x) in *.
      rewrite <- E. pose proof (sm_sq mu Hmu) as M. clearbody r s.
      set (m := sqrt mu) in *. rewrite <- M. field. split; auto.
  Qed.

  Lemma comb_der (f g : R -> R) (a b t : R) :
    is_derive f t a -> is_derive g t b ->
    vderive (fun t => vplus (smul (f t) r0) (smul (g t) v0)) t (vplus (smul a r0) (smul b v0)).
  Proof.
    intros Hf Hg. unfold vplus, smul, vderive; cbn [c0 c1 c2]. split; [|split];
      (apply der_plus; apply der_scal_r; assumption).
  Qed.

  Lemma motion : two_body_motion mu rM vM.
  Proof.
    intros t. split; [|split].
    - apply pos_neq; auto. apply Hr0.
    - unfold rM, posS. apply comb_der; [apply F_t|apply G_t].
    - unfold gravity.
      assert (E : vnorm (rM t) = radS r0 v0 mu (chiS t)) by (apply pos_norm; auto; apply Hr0).
      rewrite E.
      replace (smul (- (mu / radS r0 v0 mu (chiS t) ^ 3)) (rM t))
        with (vplus (smul (- (mu / radS r0 v0 mu (chiS t) ^ 3) * FS r0 v0 mu (chiS t)) r0)
                    (smul (- (mu / radS r0 v0 mu (chiS t) ^ 3) * GS r0 v0 mu (chiS t)) v0)).
      + unfold vM, velS. apply comb_der; [apply Ft_t|apply Gt_t].
      + unfold rM, posS. apply comb_smul.
  Qed.
  Lemma motion_start : rM 0 = r0 /\ vM 0 = v0.
  Proof.
    unfold rM, vM. rewrite chiS_0. destruct (posS_0 r0 v0 mu Hmu Hr0) as [A [B _]]. auto.
  Qed.

  (** Every generalized anomaly gives a point of the motion. *)
  Lemma state_on_motion chi : posS r0 v0 mu chi = rM (timeS r0 v0 mu chi / sqrt mu) /\
    velS r0 v0 mu chi = vM (timeS r0 v0 mu chi / sqrt mu).
  Proof.
    unfold rM, vM. rewrite <- (chiS_unique (timeS r0 v0 mu chi / sqrt mu) chi); auto.
    field. now apply sqrt_pos_neq.
  Qed.
End Motion.
