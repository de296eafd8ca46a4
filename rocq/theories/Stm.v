(** * Stm: the state transition matrix is the derivative of the flow (proofs for C18-C20) *)
From Coq Require Import Reals Lra Lia Psatz.
From Coquelicot Require Import Coquelicot.
From Verif Require Import Num NumR Spec RLib Ana Uniformulas Lagrange OrbIntegrals KepEqu StateTrans
  SeriesU UFacts OrbFacts KepState KepMotion TwoBody KepRows StmAlg.
Local Open Scope R_scope.

(** ** Analysis *)
Lemma der_ev (f g : R -> R) (s a : R) : locally s (fun u => f u = g u) -> is_derive f s a -> is_derive g s a.
Proof. intros H. apply is_derive_ext_loc. exact H. Qed.
Lemma der_continuous (f : R -> R) (s a : R) : is_derive f s a -> continuous f s.
Proof. intros H. apply (ex_derive_continuous f). now exists a. Qed.
Lemma ev_gt (f : R -> R) (s a c : R) : is_derive f s a -> c < f s -> locally s (fun u => c < f u).
Proof.
  intros H L. exact (der_continuous f s a H (fun y => c < y) (open_gt c (f s) L)).
Qed.
Lemma ev_lt (f : R -> R) (s a c : R) : is_derive f s a -> f s < c -> locally s (fun u => f u < c).
Proof.
  intros H L. exact (der_continuous f s a H (fun y => y < c) (open_lt c (f s) L)).
Qed.

Lemma mvt_eq (f df : R -> R) (a b : R) : (forall x : R, is_derive f x (df x)) ->
  exists x : R, Rabs (x - a) <= Rabs (b - a) /\ f b - f a = df x * (b - a).
Proof.
  intros H. destruct (mvt f df a b H) as [x [Hx E]]. exists x. split; [|exact E].
  revert Hx. unfold Rmin, Rmax. destruct (Rle_dec a b); intros [P Q]; unfold Rabs; destruct (Rcase_abs (x - a)), (Rcase_abs (b - a)); lra.
Qed.

(** One-dimensional implicit function theorem: [g u (f u)] constant near [s]. *)
Lemma implicit_der (g dg : R -> R -> R) (f : R -> R) (s c D k : R) :
  0 < k -> locally s (fun u => (forall x : R, is_derive (g u) x (dg u x)) /\ (forall x, k <= dg u x) /\ g u (f u) = c) ->
  is_derive (fun u => g u (f s)) s D ->
  continuous (fun p : R * R => dg (fst p) (snd p)) (s, f s) ->
  is_derive f s (- D / dg s (f s)).
Proof.
  intros Hk HL HD HC.
  assert (H0 : forall x, k <= dg s x) by (apply locally_singleton in HL; apply HL).
  assert (E0 : g s (f s) = c) by (apply locally_singleton in HL; apply HL).
  pose proof (H0 (f s)) as Hm. set (m0 := dg s (f s)) in *.
  apply is_derive_Reals. apply is_derive_Reals in HD. intros eps Heps.
  (* tolerance for the quotient and for the slope *)
  set (e1 := eps * k / 2). set (e2 := eps * k * m0 / (2 * (Rabs D + 1))).
  pose proof (Rabs_pos D) as PD.
  assert (P1 : 0 < e1) by (unfold e1; apply Rmult_lt_0_compat; [apply Rmult_lt_0_compat|]; lra).
  assert (P2 : 0 < e2).
  { unfold e2. apply Rdiv_lt_0_compat; [|lra]. apply Rmult_lt_0_compat; [apply Rmult_lt_0_compat|]; lra. }
  destruct (HD e1 P1) as [d1 Hd1].
  destruct (proj1 (filterlim_locally _ _) HC (mkposreal e2 P2)) as [d2 Hd2].
  destruct HL as [d3 Hd3].
  (* f is close to f s *)
  set (B := Rabs D + e1).
  assert (PB : 0 < B) by (unfold B; lra).
  assert (Pd : 0 < Rmin d1 (Rmin d2 (Rmin d3 (k * d2 / B)))).
  { repeat apply Rmin_pos; try apply cond_pos. apply Rdiv_lt_0_compat; auto. apply Rmult_lt_0_compat; auto. apply cond_pos. }
  exists (mkposreal _ Pd). intros h Hh0 Hh. simpl in Hh.
  pose proof (Rmin_l d1 (Rmin d2 (Rmin d3 (k * d2 / B)))).
  pose proof (Rmin_r d1 (Rmin d2 (Rmin d3 (k * d2 / B)))).
  pose proof (Rmin_l d2 (Rmin d3 (k * d2 / B))). pose proof (Rmin_r d2 (Rmin d3 (k * d2 / B))).
  pose proof (Rmin_l d3 (k * d2 / B)). pose proof (Rmin_r d3 (k * d2 / B)).
  assert (Q : Rabs ((g (s + h) (f s) - g s (f s)) / h - D) < e1) by (apply Hd1; auto; lra).
  assert (L3 : ball s d3 (s + h)).
  { unfold ball; simpl; unfold AbsRing_ball, abs, minus, plus, opp; simpl. replace (s + h + - s) with h by ring. lra. }
  destruct (Hd3 _ L3) as [Dg [Kg Eg]].
  destruct (mvt_eq (g (s + h)) (dg (s + h)) (f s) (f (s + h)) Dg) as [x [Hx E]].
  rewrite Eg in E. set (m := dg (s + h) x) in *. pose proof (Kg x) as Km. fold m in Km.
  set (q := (g (s + h) (f s) - g s (f s)) / h) in *.
  assert (Eq : (f (s + h) - f s) = - (q * h) / m).
  { apply (Rmult_eq_reg_l m); [|lra]. rewrite <- E, <- E0. unfold q. field. split; lra. }
  assert (Bq : Rabs q < B).
  { unfold B. replace q with ((q - D) + D) by ring. eapply Rle_lt_trans; [apply Rabs_triang|]. lra. }
  assert (Ph : 0 < Rabs h) by (now apply Rabs_pos_lt).
  assert (Cf : Rabs (f (s + h) - f s) < d2).
  { rewrite Eq. unfold Rdiv. rewrite Rabs_mult, Rabs_Ropp, Rabs_mult, (Rabs_right (/ m)).
    2:{ apply Rle_ge, Rlt_le, Rinv_0_lt_compat. lra. }
    apply (Rmult_lt_reg_r m); [lra|].
    replace (Rabs q * Rabs h * / m * m) with (Rabs q * Rabs h) by (field; lra).
    assert (Rabs h < k * d2 / B) by lra.
    assert (Rabs h * B < k * d2).
    { apply (Rmult_lt_reg_r (/ B)); [now apply Rinv_0_lt_compat|].
      replace (Rabs h * B * / B) with (Rabs h) by (field; lra). exact H6. }
    assert (Rabs q * Rabs h <= Rabs h * B).
    { rewrite Rmult_comm. apply Rmult_le_compat_l; lra. }
    assert (k * d2 <= d2 * m) by (rewrite Rmult_comm; apply Rmult_le_compat_l; [apply Rlt_le, cond_pos|lra]).
    lra. }
  assert (Mx : Rabs (m - m0) < e2).
  { assert (BB : ball (s, f s) d2 (s + h, x)).
    { split; simpl; unfold ball; simpl; unfold AbsRing_ball, abs, minus, plus, opp; simpl.
      - replace (s + h + - s) with h by ring. lra.
      - replace (x + - f s) with (x - f s) by ring. lra. }
    pose proof (Hd2 _ BB) as Z. unfold ball in Z; simpl in Z; unfold AbsRing_ball, abs, minus, plus, opp in Z; simpl in Z.
    exact Z. }
  assert (Pm : 0 < m * m0) by (apply Rmult_lt_0_compat; lra).
  replace ((f (s + h) - f s) / h - - D / m0) with ((D * (m - m0) + m0 * - (q - D)) / (m * m0)).
  2:{ rewrite Eq. field. repeat split; lra. }
  unfold Rdiv. rewrite Rabs_mult, (Rabs_right (/ (m * m0))).
  2:{ apply Rle_ge, Rlt_le, Rinv_0_lt_compat, Pm. }
  apply (Rmult_lt_reg_r (m * m0)); [exact Pm|].
  rewrite Rmult_assoc, Rinv_l, Rmult_1_r by lra.
  eapply Rle_lt_trans; [apply Rabs_triang|]. rewrite !Rabs_mult, Rabs_Ropp, (Rabs_right m0) by lra.
  assert (T1 : Rabs D * Rabs (m - m0) <= (eps * k * m0) / 2).
  { apply Rle_trans with (Rabs D * e2); [apply Rmult_le_compat_l; lra|]. unfold e2.
    replace (Rabs D * (eps * k * m0 / (2 * (Rabs D + 1)))) with (eps * k * m0 / 2 * (Rabs D / (Rabs D + 1))) by (field; lra).
    rewrite <- (Rmult_1_r (eps * k * m0 / 2)) at 2. apply Rmult_le_compat_l.
    - apply Rlt_le, Rmult_lt_0_compat; [|lra]. apply Rmult_lt_0_compat; [apply Rmult_lt_0_compat|]; lra.
    - apply (Rmult_le_reg_r (Rabs D + 1)); [lra|]. unfold Rdiv. rewrite Rmult_assoc, Rinv_l; lra. }
  assert (T2 : m0 * Rabs (q - D) < m0 * (eps * k / 2)) by (apply Rmult_lt_compat_l; auto; lra).
  assert (T3 : eps * k * m0 <= eps * (m * m0)).
  { rewrite Rmult_assoc. apply Rmult_le_compat_l; [lra|]. apply Rmult_le_compat_r; lra. }
  lra.
Qed.

(** ** Universal functions along a curve *)
Lemma U_total (n : nat) (chi al : R -> R) (s c' a' dx dy : R) :
  is_derive chi s c' -> is_derive al s a' ->
  is_derive (fun x => U n x (al s)) (chi s) dx -> is_derive (fun a => U n (chi s) a) (al s) dy ->
  is_derive (fun u => U n (chi u) (al u)) s (c' * dx + a' * dy).
Proof.
  intros Hc Ha Hx Hy.
  set (S' := - (St (n + 1) (al s * chi s ^ 2) - INR n * St (n + 2) (al s * chi s ^ 2)) / 2).
  assert (G : forall (f g : R -> R) (t f' g' : R), f t = chi s -> g t = al s -> is_derive f t f' -> is_derive g t g' ->
    is_derive (fun u => U n (f u) (g u)) t
      (f' * (INR n * chi s ^ pred n * St n (al s * chi s ^ 2) + chi s ^ n * (2 * al s * chi s * S'))
       + g' * (chi s ^ n * chi s ^ 2 * S'))).
  { intros f g t f' g' Ef Eg Hf Hg. unfold U. eapply der_eq.
    - apply der_mult; [apply der_pow, Hf|].
      apply (der_comp (St n) (fun u => g u * f u ^ 2)); [rewrite Ef, Eg; apply St_derive|].
      apply der_mult; [exact Hg|apply der_pow, Hf].
    - cbv beta. rewrite Ef, Eg. fold S'. simpl (INR 2). simpl (chi s ^ pred 2). ring. }
  pose proof (G (fun x => x) (fun _ => al s) (chi s) 1 0 eq_refl eq_refl (der_id _) (der_const _ _)) as Gx.
  pose proof (G (fun _ => chi s) (fun x => x) (al s) 0 1 eq_refl eq_refl (der_const _ _) (der_id _)) as Gy.
  pose proof (der_uniq _ _ _ _ Gx Hx) as Ex. pose proof (der_uniq _ _ _ _ Gy Hy) as Ey.
  eapply der_eq; [apply (G chi al s c' a'); auto|]. rewrite <- Ex, <- Ey. ring.
Qed.

Lemma U_joint_cont (n : nat) (al : R -> R) (s c : R) : continuous al s ->
  continuous (fun p : R * R => U n (snd p) (al (fst p))) (s, c).
Proof.
  intros Ha. unfold U.
  assert (P : forall k, continuous (fun p : R * R => snd p ^ k) (s, c)).
  { intros k. apply (continuous_comp (fun p : R * R => snd p) (fun x => x ^ k)).
    - apply continuous_snd.
    - apply (der_continuous _ _ (INR k * 1 * c ^ pred k)). apply (der_pow (fun x => x)), der_id. }
  apply (continuous_mult (fun p : R * R => snd p ^ n)); [apply P|].
  apply (continuous_comp (fun p : R * R => al (fst p) * snd p ^ 2) (St n)).
  - apply (continuous_mult (fun p : R * R => al (fst p))); [|apply P].
    apply (continuous_comp (fun p : R * R => fst p) al); [apply continuous_fst|exact Ha].
  - eapply der_continuous. apply St_derive.
Qed.

Lemma U4_eq (chi al : R) : U 4 chi al = (chi * U 3 chi al + U 1 chi al * U 3 chi al - U 2 chi al ^ 2) / 2.
Proof.
  set (f := fun x : R => U 4 x al - (x * U 3 x al + U 1 x al * U 3 x al - U 2 x al ^ 2) / 2).
  assert (D : forall x : R, is_derive f x 0).
  { intros x. unfold f.
    pose proof (U_dchi 3 x al) as D4. pose proof (U_dchi 2 x al) as D3.
    pose proof (U_dchi 1 x al) as D2. pose proof (U_dchi 0 x al) as D1.
    eapply der_eq.
    - apply der_minus; [exact D4|]. unfold Rdiv. apply der_scal_r. apply der_minus; [|apply der_pow; exact D2].
      apply der_plus; apply der_mult; [apply der_id|exact D3|exact D1|exact D3].
    - cbv beta. simpl (INR 2). simpl (U 2 x al ^ pred 2). rewrite (U0_eq x al), (U1_eq x al). field. }
  pose proof (der_zero_const f D chi 0) as E. unfold f in E. rewrite !U_zero in E. simpl in E. simpl. lra.
Qed.

(** ** Curves of initial states *)
Section Curve.
  Variables (r0 v0 : R -> vec) (s mu : R) (dr dv : vec).
  Hypothesis Hmu : 0 < mu.
  Hypothesis Hh : cross (r0 s) (v0 s) <> vzero.
  Hypothesis Dr : vderive r0 s dr.
  Hypothesis Dv : vderive v0 s dv.
  Let n u := vnorm (r0 u).
  Let sg u := sigmaS (r0 u) (v0 u) mu.
  Let al u := alphaS (r0 u) (v0 u) mu.
  Let p u := pS (r0 u) (v0 u) mu.
  Let m := sqrt mu.
  Let a := dot (r0 s) dr.
  Let b := dot (v0 s) dr / m.
  Let c := dot (r0 s) dv / m.
  Let d := dot (v0 s) dv / mu.
  Lemma c_m : 0 < m. Proof. now apply sqrt_lt_R0. Qed.
  Lemma c_mm : m * m = mu. Proof. apply sqrt_sqrt; lra. Qed.
  Lemma c_r0 : r0 s <> vzero. Proof. exact (vec_nonzero_l _ _ Hh). Qed.
  Lemma c_v0 : v0 s <> vzero. Proof. exact (vec_nonzero_r _ _ Hh). Qed.
  Lemma c_n : 0 < n s. Proof. apply vnorm_pos, c_r0. Qed.

  Lemma n_der : is_derive n s (a / n s).
  Proof.
    pose proof c_n. eapply der_eq; [apply (vnorm_der r0 s dr Dr c_r0)|]. reflexivity.
  Qed.
  Lemma sg_der' : is_derive sg s (b + c).
  Proof.
    pose proof c_m. unfold sg, sigmaS. fold m. eapply der_eq.
    - apply der_div; [apply (dot_der r0 v0 s dr dv Dr Dv)|apply der_const|lra].
    - unfold b, c. rewrite (dot_comm dr). field. lra.
  Qed.
  Lemma al_der : is_derive al s (- 2 * a / n s ^ 3 - 2 * d).
  Proof.
    pose proof c_n. pose proof (vnorm_pos _ c_v0).
    unfold al, alphaS. eapply der_eq.
    - apply der_minus.
      + apply (der_div (fun _ => 2) n); [apply der_const|exact n_der|lra].
      + apply (der_div (fun u => vnorm (v0 u) ^ 2) (fun _ => mu)); [|apply der_const|lra].
        apply (der_pow (fun u => vnorm (v0 u))). apply (vnorm_der v0 s dv Dv c_v0).
    - cbv beta. fold (n s). unfold d. simpl (INR 2). simpl (vnorm (v0 s) ^ pred 2). field. repeat split; lra.
  Qed.
  Lemma p_ex : exists p', is_derive p s p'.
  Proof.
    assert (C : exists x, vderive (fun u => cross (r0 u) (v0 u)) s x).
    { destruct Dr as [R0 [R1 R2]], Dv as [V0 [V1 V2]].
      eexists (mk3 _ _ _). unfold vderive, cross; cbn [c0 c1 c2].
      split; [|split]; apply der_minus; apply der_mult; eauto. }
    destruct C as [x C]. eexists. unfold p, pS. apply der_div; [apply (dot_der _ _ s x x C C)|apply der_const|lra].
  Qed.
  Lemma p_pos' : 0 < p s.
  Proof. apply pS_pos; auto. Qed.

  (** Uniform lower bound of the radius near [s]. *)
  Definition kk : R := Rmin 1 (p s / (2 * (3 + Rabs (al s)))).
  Lemma kk_pos : 0 < kk.
  Proof.
    unfold kk. apply Rmin_pos; [lra|]. pose proof p_pos'. pose proof (Rabs_pos (al s)).
    apply Rdiv_lt_0_compat; lra.
  Qed.
  Lemma near : locally s (fun u => cross (r0 u) (v0 u) <> vzero /\ forall x, kk <= radS (r0 u) (v0 u) mu x).
  Proof.
    destruct p_ex as [p' Hp]. pose proof p_pos' as P. pose proof kk_pos as K.
    generalize (ev_gt p s p' (p s / 2) Hp ltac:(lra)). intros L1.
    generalize (ev_lt al s _ (Rabs (al s) + 1) al_der ltac:(pose proof (Rle_abs (al s)); lra)). intros L2.
    generalize (ev_gt al s _ (- Rabs (al s) - 1) al_der
      ltac:(pose proof (Rle_abs (- al s)) as Z; rewrite Rabs_Ropp in Z; lra)). intros L3.
    pose proof (filter_and _ _ (filter_and _ _ L1 L2) L3) as L. revert L. apply filter_imp.
    intros u [[H1 H2] H3].
    assert (Hu : cross (r0 u) (v0 u) <> vzero).
    { intros E. unfold p at 2, pS in H1. rewrite E in H1.
      replace (dot vzero vzero) with 0 in H1 by (unfold dot, vzero; cbn; ring).
      unfold Rdiv at 2 in H1. rewrite Rmult_0_l in H1. lra. }
    split; [exact Hu|]. intros x.
    destruct (Rle_lt_dec kk (radS (r0 u) (v0 u) mu x)) as [Q|Q]; [exact Q|exfalso].
    pose proof (vec_nonzero_l _ _ Hu) as Hr.
    pose proof (radS_pos (r0 u) (v0 u) mu Hmu Hr Hu x) as RP.
    pose proof (sigS_sq (r0 u) (v0 u) mu Hmu Hr x) as S. fold (al u) (p u) in S.
    set (r := radS (r0 u) (v0 u) mu x) in *. pose proof (pow2_ge_0 (sigS (r0 u) (v0 u) mu x)) as S0.
    assert (K1 : kk <= 1) by apply Rmin_l.
    assert (K2 : kk * (2 * (3 + Rabs (al s))) <= p s).
    { pose proof (Rabs_pos (al s)). pose proof (Rmin_r 1 (p s / (2 * (3 + Rabs (al s))))) as Z. fold kk in Z.
      apply (Rmult_le_compat_r (2 * (3 + Rabs (al s)))) in Z; [|lra].
      replace (p s / (2 * (3 + Rabs (al s))) * (2 * (3 + Rabs (al s)))) with (p s) in Z by (field; lra). exact Z. }
    assert (Z1 : - al u * r ^ 2 <= (Rabs (al s) + 1) * r).
    { apply Rle_trans with ((Rabs (al s) + 1) * r ^ 2).
      - apply Rmult_le_compat_r; [apply pow2_ge_0|lra].
      - apply Rmult_le_compat_l; [pose proof (Rabs_pos (al s)); lra|]. nra. }
    pose proof (Rabs_pos (al s)). nra.
  Qed.

  (** The anomaly of the end state, as a function of the parameter. *)
  Variable t : R.
  Variable chi : R -> R.
  Hypothesis Hchi : locally s (fun u => timeS (r0 u) (v0 u) mu (chi u) = m * t).
  Let X := chi s.
  Let TT := n s * ((U 3 X (al s) - X * U 2 X (al s)) / 2)
            + sg s * ((2 * U 4 X (al s) - X * U 3 X (al s)) / 2)
            + (3 * U 5 X (al s) - X * U 4 X (al s)) / 2.

  Lemma U_da (k : nat) (x y : R) : is_derive (fun a => U k x a) y ((INR k * U (k + 2) x y - x * U (k + 1) x y) / 2).
  Proof. apply U_dalpha. Qed.

  Lemma time_der : is_derive (fun u => timeS (r0 u) (v0 u) mu X) s
     (a / n s * U 1 X (al s) + (b + c) * U 2 X (al s) + TT * (- 2 * a / n s ^ 3 - 2 * d)).
  Proof.
    assert (K : forall k, is_derive (fun u => U k X (al u)) s
      ((- 2 * a / n s ^ 3 - 2 * d) * ((INR k * U (k + 2) X (al s) - X * U (k + 1) X (al s)) / 2))).
    { intros k. apply (der_comp (fun y => U k X y) al); [apply U_da|apply al_der]. }
    unfold timeS. eapply der_eq.
    - apply der_plus; [apply der_plus; apply der_mult; [apply n_der|apply (K 1%nat)|apply sg_der'|apply (K 2%nat)]|apply (K 3%nat)].
    - cbv beta. unfold TT. fold (al s) (n s) (sg s). simpl (1 + 2)%nat. simpl (1 + 1)%nat. simpl (2 + 2)%nat.
      simpl (2 + 1)%nat. simpl (3 + 2)%nat. simpl (3 + 1)%nat. simpl INR. field. pose proof c_n. lra.
  Qed.

  Definition dc : R := - (a / n s * U 1 X (al s) + (b + c) * U 2 X (al s) + TT * (- 2 * a / n s ^ 3 - 2 * d))
                    / radS (r0 s) (v0 s) mu X.
  Lemma chi_der : is_derive chi s dc.
  Proof.
    unfold dc.
    apply (implicit_der (fun u => timeS (r0 u) (v0 u) mu) (fun u => radS (r0 u) (v0 u) mu) chi s (m * t) _ kk kk_pos).
    - generalize (filter_and _ _ near Hchi). apply filter_imp. intros u [[H1 H2] H3].
      split; [intros x; apply timeS_der|]. auto.
    - apply time_der.
    - fold X. unfold radS.
      assert (C : forall (f : R -> R) (f' : R), is_derive f s f' -> continuous (fun q : R * R => f (fst q)) (s, X)).
      { intros f f' Hf. apply (continuous_comp (fun q : R * R => fst q) f); [apply continuous_fst|].
        eapply der_continuous, Hf. }
      pose proof (der_continuous _ _ _ al_der) as CA.
      pose proof (U_joint_cont 0 al s X CA). pose proof (U_joint_cont 1 al s X CA). pose proof (U_joint_cont 2 al s X CA).
      apply (continuous_plus (fun q : R * R => n (fst q) * U 0 (snd q) (al (fst q)) + sg (fst q) * U 1 (snd q) (al (fst q)))); [|assumption].
      apply (continuous_plus (fun q : R * R => n (fst q) * U 0 (snd q) (al (fst q)))).
      + apply (continuous_mult (fun q : R * R => n (fst q))); [|assumption]. apply (C n _ n_der).
      + apply (continuous_mult (fun q : R * R => sg (fst q))); [|assumption]. apply (C sg _ sg_der').
  Qed.

  (** Derivatives of the universal functions of the end state. *)
  Lemma Uk_der (k : nat) (dx : R) : is_derive (fun x => U k x (al s)) X dx ->
    is_derive (fun u => U k (chi u) (al u)) s
      (dc * dx + (- 2 * a / n s ^ 3 - 2 * d) * ((INR k * U (k + 2) X (al s) - X * U (k + 1) X (al s)) / 2)).
  Proof. intros H. apply U_total; [apply chi_der|apply al_der|exact H|apply U_da]. Qed.

  Let Da := - 2 * a / n s ^ 3 - 2 * d.
  Let d0 := - X * U 1 X (al s) / 2.
  Let d1 := (U 3 X (al s) - X * U 2 X (al s)) / 2.
  Let d2 := (2 * U 4 X (al s) - X * U 3 X (al s)) / 2.
  Let du0 := - al s * U 1 X (al s) * dc + d0 * Da.
  Let du1 := U 0 X (al s) * dc + d1 * Da.
  Let du2 := U 1 X (al s) * dc + d2 * Da.
  Lemma u0_d : is_derive (fun u => U 0 (chi u) (al u)) s du0.
  Proof.
    eapply der_eq; [apply Uk_der, U_dchi_0|]. unfold du0, d0, Da. simpl (0 + 2)%nat. simpl (0 + 1)%nat. simpl INR.
    fold (al s). field. pose proof c_n. lra.
  Qed.
  Lemma u1_d : is_derive (fun u => U 1 (chi u) (al u)) s du1.
  Proof.
    eapply der_eq; [apply Uk_der, U_dchi|]. unfold du1, d1, Da. simpl (1 + 2)%nat. simpl (1 + 1)%nat. simpl INR.
    fold (al s). field. pose proof c_n. lra.
  Qed.
  Lemma u2_d : is_derive (fun u => U 2 (chi u) (al u)) s du2.
  Proof.
    eapply der_eq; [apply Uk_der, U_dchi|]. unfold du2, d2, Da. simpl (2 + 2)%nat. simpl (2 + 1)%nat. simpl INR.
    fold (al s). field. pose proof c_n. lra.
  Qed.
  Let rad := radS (r0 s) (v0 s) mu X.
  Let dn := a / n s.
  Let ds := b + c.
  Let drad := dn * U 0 X (al s) + n s * du0 + ds * U 1 X (al s) + sg s * du1 + du2.
  Lemma rad_d : is_derive (fun u => radS (r0 u) (v0 u) mu (chi u)) s drad.
  Proof.
    unfold radS. eapply der_eq.
    - apply der_plus; [apply der_plus; apply der_mult|apply u2_d]; [apply n_der|apply u0_d|apply sg_der'|apply u1_d].
    - cbv beta. unfold drad, dn, ds, X, n, sg, al. ring.
  Qed.
  Lemma rad_pos' : 0 < rad.
  Proof. apply radS_pos; auto. apply c_r0. Qed.
  Lemma F_d : is_derive (fun u => FS (r0 u) (v0 u) mu (chi u)) s (- (du2 / n s - U 2 X (al s) * dn / n s ^ 2)).
  Proof.
    pose proof c_n. unfold FS. eapply der_eq.
    - apply der_minus; [apply der_const|]. apply (der_div (fun u => U 2 (chi u) (al u)) n); [apply u2_d|apply n_der|lra].
    - cbv beta. fold X. unfold dn. field. lra.
  Qed.
  Lemma G_d : is_derive (fun u => GS (r0 u) (v0 u) mu (chi u)) s
    ((dn * U 1 X (al s) + n s * du1 + ds * U 2 X (al s) + sg s * du2) / m).
  Proof.
    pose proof c_m. unfold GS. fold m. eapply der_eq.
    - apply der_div; [|apply der_const|lra].
      apply der_plus; apply der_mult; [apply n_der|apply u1_d|apply sg_der'|apply u2_d].
    - cbv beta. unfold dn, ds, X, n, sg, al. field. pose proof c_n. unfold n in *. lra.
  Qed.
  Lemma Ft_d : is_derive (fun u => FtS (r0 u) (v0 u) mu (chi u)) s
    (- m * (du1 / (rad * n s) - U 1 X (al s) * drad / (rad ^ 2 * n s) - U 1 X (al s) * dn / (rad * n s ^ 2))).
  Proof.
    pose proof c_m. pose proof c_n. pose proof rad_pos' as P. unfold FtS. fold m. eapply der_eq.
    - apply (der_div (fun u => - m / radS (r0 u) (v0 u) mu (chi u) * U 1 (chi u) (al u)) n); [|apply n_der|lra].
      apply der_mult; [|apply u1_d].
      apply (der_div (fun _ => - m) (fun u => radS (r0 u) (v0 u) mu (chi u))); [apply der_const|apply rad_d|].
      unfold rad in P; unfold X in P; lra.
    - cbv beta. fold X rad. unfold dn. field. split; lra.
  Qed.
  Lemma Gt_d : is_derive (fun u => GtS (r0 u) (v0 u) mu (chi u)) s
    (- (du2 / rad - U 2 X (al s) * drad / rad ^ 2)).
  Proof.
    pose proof c_m. pose proof c_n. pose proof rad_pos' as P. unfold GtS. eapply der_eq.
    - apply der_minus; [apply der_const|].
      apply (der_div (fun u => U 2 (chi u) (al u)) (fun u => radS (r0 u) (v0 u) mu (chi u))); [apply u2_d|apply rad_d|].
      unfold rad in P; unfold X in P; lra.
    - cbv beta. fold X rad. field. lra.
  Qed.

  Let C := (3 * U 5 X (al s) - X * U 4 X (al s) - m * t * U 2 X (al s)) / m.
  Let r0s := r0 s.
  Let v0s := v0 s.
  Let Pos := posS r0s v0s mu X.
  Let Vel := velS r0s v0s mu X.
  Let F := FS r0s v0s mu X.
  Let G := GS r0s v0s mu X.
  Let Ft := FtS r0s v0s mu X.
  Let Gt := GtS r0s v0s mu X.

  Lemma H_time : timeS r0s v0s mu X = m * t.
  Proof. exact (locally_singleton s (fun u => timeS (r0 u) (v0 u) mu (chi u) = m * t) Hchi). Qed.
  Lemma C_eq : C = (3 * U 5 X (al s) - X * U 4 X (al s) - timeS r0s v0s mu X * U 2 X (al s)) / m.
  Proof. rewrite H_time. reflexivity. Qed.
  Lemma U_sq (x y : R) : U 1 x y * U 1 x y = U 2 x y * (2 - y * U 2 x y).
  Proof. transitivity (U 1 x y ^ 2); [ring|]. rewrite U_half, U0_eq. ring. Qed.
  Lemma U1_eq' (x y : R) : x = U 1 x y + y * U 3 x y.
  Proof. pose proof (U1_eq x y). lra. Qed.

  Lemma b_eq : dot v0s dr = m * b. Proof. unfold b, v0s. pose proof c_m. field. lra. Qed.
  Lemma c_eq : dot r0s dv = m * c. Proof. unfold c, r0s. pose proof c_m. field. lra. Qed.
  Lemma d_eq : dot v0s dv = mu * d. Proof. unfold d, v0s. field. lra. Qed.
  Lemma diff_dot (z : vec) : dot (vminus Vel v0s) z = Ft * dot r0s z + (Gt - 1) * dot v0s z.
  Proof.
    unfold Vel, velS. fold Ft Gt.
    rewrite dot_minus_l, dot_plus_l, !dot_smul_l. ring.
  Qed.
  Lemma pos_dot (z : vec) : dot Pos z = F * dot r0s z + G * dot v0s z.
  Proof. unfold Pos, posS. fold F G. now rewrite dot_plus_l, !dot_smul_l. Qed.

  Let dF := - (du2 / n s - U 2 X (al s) * dn / n s ^ 2).
  Let dG := (dn * U 1 X (al s) + n s * du1 + ds * U 2 X (al s) + sg s * du2).
  Let dFt := - (du1 / (rad * n s) - U 1 X (al s) * drad / (rad ^ 2 * n s) - U 1 X (al s) * dn / (rad * n s ^ 2)).
  Let dGt := - (du2 / rad - U 2 X (al s) * drad / rad ^ 2).

  (** The four blocks of the matrix applied to the variation. *)
  Definition rrS := vplus (vplus (vplus
      (smul (rad / mu * dot (vminus Vel v0s) dr) (vminus Vel v0s))
      (smul ((1 - F) * dot r0s dr / n s ^ 2) Pos))
      (smul (C / n s ^ 3 * dot r0s dr) Vel)) (smul F dr).
  Definition rvS := vplus (vplus
      (smul (n s / mu * (1 - F)) (vminus (smul (dot v0s dv) (vminus Pos r0s)) (smul (dot r0s dv) (vminus Vel v0s))))
      (smul (C / mu * dot v0s dv) Vel)) (smul G dv).
  Definition vrS := vminus (vplus (vminus
      (smul (- (dot r0s dr / n s ^ 2)) (vminus Vel v0s))
      (smul (dot (vminus Vel v0s) dr / rad ^ 2) Pos))
      (smul Ft (vplus (vminus dr (smul (dot Pos dr / rad ^ 2) Pos))
         (smul (dot (vminus Vel v0s) dr / (mu * rad))
            (vminus (smul (dot Vel Pos) Pos) (smul (rad ^ 2) Vel))))))
      (smul (mu / rad ^ 2 * C / n s ^ 2 * (dot r0s dr / n s) / rad) Pos).
  Definition vvS := vplus (vminus (vplus
      (smul (n s / mu * dot (vminus Vel v0s) dv) (vminus Vel v0s))
      (smul ((1 - F) * n s / rad ^ 3 * dot r0s dv) Pos))
      (smul (C / rad ^ 3 * dot v0s dv) Pos)) (smul Gt dv).

  Lemma comp_pos (x v x' v' : R) :
    let Ri := F * x + G * v in let Vi := Ft * x + Gt * v in
    dF * x + F * x' + (dG / m * v + G * v')
    = rad / mu * (dot (vminus Vel v0s) dr) * (Vi - v) + (1 - F) * dot r0s dr / n s ^ 2 * Ri
      + C / n s ^ 3 * dot r0s dr * Vi + F * x'
      + (n s / mu * (1 - F) * (dot v0s dv * (Ri - x) - dot r0s dv * (Vi - v)) + C / mu * dot v0s dv * Vi + G * v').
  Proof.
    cbv zeta. rewrite diff_dot, b_eq, c_eq, d_eq, C_eq.
    pose proof c_n as Pn. pose proof rad_pos' as Pr. pose proof c_m as Pm. pose proof c_mm as Mm.
    assert (Nn : n s <> 0) by lra. assert (Nr : rad <> 0) by lra. assert (Nm : m <> 0) by lra.
    apply (pos_glue m mu (n s) rad (U 1 X (al s)) (U 2 X (al s)) (n s * U 1 X (al s) + sg s * U 2 X (al s))
       (3 * U 5 X (al s) - X * U 4 X (al s) - timeS r0s v0s mu X * U 2 X (al s)) a b c d x v x' v' Nm Nn Nr (eq_sym Mm)
       dF dG).
    exact (pos_variation (n s) (sg s) (al s) X (U 0 X (al s)) (U 1 X (al s)) (U 2 X (al s)) (U 3 X (al s))
       (U 4 X (al s)) (U 5 X (al s)) (U0_eq X (al s)) (U1_eq' X (al s)) (U4_eq X (al s))
       a b c d Nn Nr x (v / m)).
  Qed.
  Lemma comp_vel (x v x' v' : R) :
    let Ri := F * x + G * v in let Vi := Ft * x + Gt * v in
    m * dFt * x + Ft * x' + (dGt * v + Gt * v')
    = - (dot r0s dr / n s ^ 2) * (Vi - v) - dot (vminus Vel v0s) dr / rad ^ 2 * Ri
      + Ft * (x' - dot Pos dr / rad ^ 2 * Ri
              + dot (vminus Vel v0s) dr / (mu * rad) * (dot Vel Pos * Ri - rad ^ 2 * Vi))
      - mu / rad ^ 2 * C / n s ^ 2 * (dot r0s dr / n s) / rad * Ri
      + (n s / mu * dot (vminus Vel v0s) dv * (Vi - v) + (1 - F) * n s / rad ^ 3 * dot r0s dv * Ri
         - C / rad ^ 3 * dot v0s dv * Ri + Gt * v').
  Proof.
    cbv zeta.
    pose proof c_n as Pn. pose proof rad_pos' as Pr. pose proof c_m as Pm. pose proof c_mm as Mm.
    assert (Nn : n s <> 0) by lra. assert (Nr : rad <> 0) by lra. assert (Nm : m <> 0) by lra.
    assert (EV : dot Vel Pos = m * sigS r0s v0s mu X).
    { rewrite dot_comm. unfold Vel, Pos. apply pos_dot_vel; auto. apply c_r0. }
    rewrite EV, pos_dot, !diff_dot, b_eq, c_eq, d_eq, C_eq.
    apply (vel_glue m mu (n s) rad (U 1 X (al s)) (U 2 X (al s)) (sigS r0s v0s mu X)
       (n s * U 1 X (al s) + sg s * U 2 X (al s))
       (3 * U 5 X (al s) - X * U 4 X (al s) - timeS r0s v0s mu X * U 2 X (al s)) a b c d x v x' v' Nm Nn Nr (eq_sym Mm)
       dFt dGt).
    exact (vel_variation (n s) (sg s) (al s) X (U 0 X (al s)) (U 1 X (al s)) (U 2 X (al s)) (U 3 X (al s))
       (U 4 X (al s)) (U 5 X (al s)) (U0_eq X (al s)) (U1_eq' X (al s)) (U4_eq X (al s)) (U_sq X (al s))
       a b c d Nn Nr x (v / m)).
  Qed.

  Lemma end_pos : vderive (fun u => posS (r0 u) (v0 u) mu (chi u)) s (vplus rrS rvS).
  Proof.
    assert (K : forall (x v : R -> R) (x' v' : R), is_derive x s x' -> is_derive v s v' ->
      is_derive (fun u => FS (r0 u) (v0 u) mu (chi u) * x u + GS (r0 u) (v0 u) mu (chi u) * v u) s
        (dF * x s + F * x' + (dG / m * v s + G * v'))).
    { intros x v x' v' Hx Hv. apply der_plus; apply der_mult; auto; [apply F_d|apply G_d]. }
    destruct Dr as [R0 [R1 R2]], Dv as [V0 [V1 V2]].
    split; [|split].
    - eapply der_eq; [exact (K _ _ _ _ R0 V0)|]. rewrite comp_pos. unfold rrS, rvS, Pos, Vel, posS, velS.
      unfold vplus, vminus, smul. cbn [c0 c1 c2]. reflexivity.
    - eapply der_eq; [exact (K _ _ _ _ R1 V1)|]. rewrite comp_pos. unfold rrS, rvS, Pos, Vel, posS, velS.
      unfold vplus, vminus, smul. cbn [c0 c1 c2]. reflexivity.
    - eapply der_eq; [exact (K _ _ _ _ R2 V2)|]. rewrite comp_pos. unfold rrS, rvS, Pos, Vel, posS, velS.
      unfold vplus, vminus, smul. cbn [c0 c1 c2]. reflexivity.
  Qed.
  Lemma end_vel : vderive (fun u => velS (r0 u) (v0 u) mu (chi u)) s (vplus vrS vvS).
  Proof.
    assert (K : forall (x v : R -> R) (x' v' : R), is_derive x s x' -> is_derive v s v' ->
      is_derive (fun u => FtS (r0 u) (v0 u) mu (chi u) * x u + GtS (r0 u) (v0 u) mu (chi u) * v u) s
        (m * dFt * x s + Ft * x' + (dGt * v s + Gt * v'))).
    { intros x v x' v' Hx Hv. apply der_plus; apply der_mult; auto; [|apply Gt_d].
      eapply der_eq; [apply Ft_d|]. unfold dFt. ring. }
    destruct Dr as [R0 [R1 R2]], Dv as [V0 [V1 V2]].
    split; [|split].
    - eapply der_eq; [exact (K _ _ _ _ R0 V0)|]. rewrite comp_vel. unfold vrS, vvS, Pos, Vel, posS, velS.
      unfold vplus, vminus, smul. cbn [c0 c1 c2]. reflexivity.
    - eapply der_eq; [exact (K _ _ _ _ R1 V1)|]. rewrite comp_vel. unfold vrS, vvS, Pos, Vel, posS, velS.
      unfold vplus, vminus, smul. cbn [c0 c1 c2]. reflexivity.
    - eapply der_eq; [exact (K _ _ _ _ R2 V2)|]. rewrite comp_vel. unfold vrS, vvS, Pos, Vel, posS, velS.
      unfold vplus, vminus, smul. cbn [c0 c1 c2]. reflexivity.
  Qed.
End Curve.
