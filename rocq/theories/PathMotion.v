(** * PathMotion: the angle swept by a motion (proofs for the time-based forms of C35 and C36) *)
From Coq Require Import Reals Ranalysis5 Lra Lia Psatz ZArith Bool.
From Coquelicot Require Import Coquelicot.
From Verif Require Import Num NumR Spec SpecPath RLib Ana RotFacts OrbIntegrals OrbFacts PathCheck
  TwoBody PathFacts.
Local Open Scope R_scope.

Section Swept.
  Variables (mu : R) (r v : R -> vec).
  Hypothesis Hm : two_body_motion mu r v.
  Let h := cross (r 0) (v 0).
  Hypothesis Hh : h <> vzero.
  Variable P : vec.
  Hypothesis HP : P <> vzero.
  Hypothesis HPh : dot P h = 0.
  Let n (t : R) := vnorm (r t).
  Let w (t : R) := vnorm h / n t ^ 2.
  Lemma sw_r t : r t <> vzero. Proof using Hm. apply Hm. Qed.
  Lemma sw_n t : 0 < n t. Proof using Hm. apply vnorm_pos, sw_r. Qed.
  Lemma sw_hp : 0 < vnorm h. Proof using Hh. now apply vnorm_pos. Qed.
  Lemma sw_wpos t : 0 < w t.
  Proof using Hm Hh. unfold w. apply Rdiv_lt_0_compat; [apply sw_hp|]. apply pow_lt, sw_n. Qed.
  Lemma sw_nd (t : R) : is_derive n t (dot (r t) (v t) / n t).
  Proof using Hm. apply vnorm_der; [apply Hm|apply sw_r]. Qed.
  Lemma sw_wcont (t : R) : continuous w t.
  Proof using Hm.
    apply continuity_pt_filterlim. eapply der_cont.
    apply (der_div (fun _ => vnorm h) (fun s => n s ^ 2)); [apply der_const|apply der_pow, sw_nd|].
    cbv beta. apply pow_nonzero. pose proof (sw_n t). lra.
  Qed.
  (** The polar angle rate is h / r^2. *)
  Definition swept (t : R) : R := RInt w 0 t.
  Lemma swept_der (t : R) : is_derive swept t (w t).
  Proof using Hm.
    apply (is_derive_RInt w swept 0 t).
    - apply filter_forall. intros y. apply (@RInt_correct R_CompleteNormedModule w 0 y). apply (ex_RInt_continuous (V := R_CompleteNormedModule)). intros; apply sw_wcont.
    - apply sw_wcont.
  Qed.
  Lemma swept_0 : swept 0 = 0.
  Proof. unfold swept. rewrite RInt_point. reflexivity. Qed.
  Lemma swept_incr s t : s < t -> swept s < swept t.
  Proof using Hm Hh. apply (der_pos_incr swept w); [apply swept_der|apply sw_wpos]. Qed.

  Let Q := cross h P.
  Let x (t : R) := dot (r t) P / n t.
  Let y (t : R) := dot (r t) Q / (vnorm h * n t).
  Lemma sw_h t : cross (r t) (v t) = h. Proof using Hm. now apply (motion_h mu). Qed.
  Lemma dotd (c : vec) (t : R) : is_derive (fun s => dot (r s) c) t (dot (v t) c).
  Proof using Hm.
    eapply der_eq; [apply (dot_der r (fun _ => c) t (v t) vzero); [apply Hm|]|].
    - split; [|split]; apply der_const.
    - unfold dot, vzero; cbn [c0 c1 c2]. ring.
  Qed.
  Lemma sw_turn t c : dot c (cross h (r t)) = n t ^ 2 * dot (v t) c - dot (r t) (v t) * dot (r t) c.
  Proof using Hm.
    unfold n. rewrite vnorm_sq2, <- (sw_h t). generalize (r t) (v t). clear.
    intros [a0 a1 a2] [b0 b1 b2]. destruct c as [x0 x1 x2]. unfold dot, cross; cbn [c0 c1 c2]. ring.
  Qed.
  Lemma sw_xd (t : R) : is_derive x t (- w t * y t).
  Proof using All.
    pose proof (sw_n t). pose proof sw_hp.
    eapply der_eq; [apply (der_div (fun s => dot (r s) P) n); [apply dotd|apply sw_nd|lra]|]. cbv beta.
    pose proof (sw_turn t P) as E.
    assert (F : dot P (cross h (r t)) = - dot (r t) Q).
    { unfold Q. generalize h P (r t). clear. intros [h0 h1 h2] [p0 p1 p2] [a0 a1 a2]. unfold dot, cross; cbn [c0 c1 c2]. ring. }
    rewrite F in E. unfold w, y.
    transitivity ((n t ^ 2 * dot (v t) P - dot (r t) (v t) * dot (r t) P) / n t ^ 3); [field; lra|].
    rewrite <- E. field. lra.
  Qed.
  Lemma sw_yd (t : R) : is_derive y t (w t * x t).
  Proof using All.
    pose proof (sw_n t). pose proof sw_hp as Hp.
    eapply der_eq; [apply (der_div (fun s => dot (r s) Q) (fun s => vnorm h * n s)); [apply dotd|apply der_scal, sw_nd|]|].
    { cbv beta. apply Rgt_not_eq, Rmult_lt_0_compat; lra. }
    cbv beta.
    pose proof (sw_turn t Q) as E.
    assert (F : dot Q (cross h (r t)) = vnorm h ^ 2 * dot (r t) P).
    { unfold Q. rewrite binet, (dot_comm P h), (dot_comm h P), HPh, vnorm_sq2, (dot_comm P). ring. }
    rewrite F in E. unfold w, x.
    transitivity ((n t ^ 2 * dot (v t) Q - dot (r t) (v t) * dot (r t) Q) / (vnorm h * n t ^ 3)); [field; lra|].
    rewrite <- E. field. lra.
  Qed.
  Variables (rho0 f : R).
  Hypothesis Hrho0 : 0 < rho0.
  Hypothesis H0 : r 0 = turn h P rho0 f.
  Let th t := f + swept t.
  Lemma th_der (t : R) : is_derive th t (w t).
  Proof using Hm.
    eapply der_eq; [apply (der_plus (fun _ => f) swept); [apply der_const|apply swept_der]|]. ring.
  Qed.
  Lemma turn_x a t : 0 < a -> forall u, u = turn h P a t -> dot u P / vnorm u = vnorm P * cos t.
  Proof using Hh HP HPh.
    intros Ha u ->. rewrite turn_norm by (auto; lra).
    rewrite <- (turn_0 h P Hh HPh) at 2. rewrite turn_dot, <- vnorm_sq by auto.
    replace (0 - t) with (- t) by ring. rewrite cos_neg. field. pose proof (vnorm_pos P HP). lra.
  Qed.
  Lemma turn_y a t : 0 < a -> forall u, u = turn h P a t -> dot u Q / (vnorm h * vnorm u) = vnorm P * sin t.
  Proof using Hh HP HPh.
    intros Ha u ->. rewrite turn_norm by (auto; lra). unfold turn, Q.
    rewrite dot_plus_l, !dot_smul_l, (P_hP h P Hh HPh), (hP_sq h P Hh HPh), <- !vnorm_sq.
    pose proof (vnorm_pos P HP). pose proof sw_hp. field. lra.
  Qed.
  Lemma sw_const1 t : x t * cos (th t) + y t * sin (th t) = vnorm P.
  Proof using All.
    transitivity (x 0 * cos (th 0) + y 0 * sin (th 0)).
    - apply (der_zero_const (fun t => x t * cos (th t) + y t * sin (th t))). intros s.
      eapply der_eq.
      + apply (der_plus (fun t => x t * cos (th t)) (fun t => y t * sin (th t))).
        * apply (der_mult x (fun t => cos (th t))); [apply sw_xd|].
          apply (der_comp cos th); [apply is_derive_cos|apply th_der].
        * apply (der_mult y (fun t => sin (th t))); [apply sw_yd|].
          apply (der_comp sin th); [apply is_derive_sin|apply th_der].
      + cbv beta. ring.
    - unfold x, y, n. rewrite (turn_x rho0 f), (turn_y rho0 f) by auto.
      unfold th. rewrite swept_0, Rplus_0_r. pose proof (sin2_cos2 f) as S. unfold Rsqr in S.
      transitivity (vnorm P * (sin f * sin f + cos f * cos f)); [ring|]. rewrite S. ring.
  Qed.
  Lemma sw_const2 t : y t * cos (th t) - x t * sin (th t) = 0.
  Proof using All.
    transitivity (y 0 * cos (th 0) - x 0 * sin (th 0)).
    - apply (der_zero_const (fun t => y t * cos (th t) - x t * sin (th t))). intros s.
      eapply der_eq.
      + apply (der_minus (fun t => y t * cos (th t)) (fun t => x t * sin (th t))).
        * apply (der_mult y (fun t => cos (th t))); [apply sw_yd|].
          apply (der_comp cos th); [apply is_derive_cos|apply th_der].
        * apply (der_mult x (fun t => sin (th t))); [apply sw_xd|].
          apply (der_comp sin th); [apply is_derive_sin|apply th_der].
      + cbv beta. ring.
    - unfold x, y, n. rewrite (turn_x rho0 f), (turn_y rho0 f) by auto.
      unfold th. rewrite swept_0, Rplus_0_r. ring.
  Qed.
  (** At every time the position is at polar angle [f + swept t]. *)
  Lemma swept_polar t : exists rho, 0 < rho /\ r t = turn h P rho (f + swept t).
  Proof using All.
    destruct (turn_onto h P Hh HP HPh (r t) (sw_r t)) as [rho [s (A & _ & B)]].
    { rewrite <- (sw_h t). apply dot_cross_self_l. }
    exists rho. split; auto. rewrite B.
    assert (X : x t = vnorm P * cos s) by (apply (turn_x rho); auto).
    assert (Y : y t = vnorm P * sin s) by (apply (turn_y rho); auto).
    pose proof (sw_const1 t) as C1. pose proof (sw_const2 t) as C2. rewrite X, Y in C1, C2.
    fold (th t). set (g := th t) in *. clearbody g. pose proof (vnorm_pos P HP) as NP.
    pose proof (sin2_cos2 g) as S. unfold Rsqr in S.
    assert (K1 : cos s * cos g + sin s * sin g = 1) by (apply Rmult_eq_reg_l with (vnorm P); lra).
    assert (K2 : sin s * cos g - cos s * sin g = 0) by (apply Rmult_eq_reg_l with (vnorm P); lra).
    assert (Cs : cos s = cos g).
    { transitivity (cos g * (cos s * cos g + sin s * sin g) - sin g * (sin s * cos g - cos s * sin g)
        + cos s * (1 - (sin g * sin g + cos g * cos g))); [ring|]. rewrite K1, K2, S. ring. }
    assert (Ss : sin s = sin g).
    { transitivity (sin g * (cos s * cos g + sin s * sin g) + cos g * (sin s * cos g - cos s * sin g)
        + sin s * (1 - (sin g * sin g + cos g * cos g))); [ring|]. rewrite K1, K2, S. ring. }
    unfold turn. now rewrite Cs, Ss.
  Qed.
  (** Positive multiples of [P] are the points at angle 0. *)
  Lemma on_axis a t : 0 < a -> ((exists k, 0 < k /\ turn h P a t = smul k P) <-> cos t = 1).
  Proof using Hh HP HPh.
    clear H0. intros Ha. pose proof (vnorm_pos P HP) as NP. split.
    - intros [k [Hk E]].
      pose proof (turn_x a t Ha _ eq_refl) as X. rewrite E in X at 1.
      rewrite turn_norm, dot_smul_l, <- vnorm_sq in X by (auto; lra).
      pose proof (turn_norm h P Hh HPh a t) as N. rewrite E, vnorm_smul, Rabs_pos_eq in N by lra.
      assert (k = a) by (apply Rmult_eq_reg_r with (vnorm P); [apply N; lra|lra]). subst k.
      apply Rmult_eq_reg_l with (vnorm P); [|lra]. rewrite <- X. field. lra.
    - intros C. exists a. split; auto.
      assert (S : sin t = 0). { pose proof (sin2_cos2 t) as S. unfold Rsqr in S. rewrite C in S. nra. }
      unfold turn. rewrite C, S. pose proof sw_hp.
      replace (a * 0 / vnorm h) with 0 by (field; lra).
      destruct P as [p0 p1 p2], (cross h (mk3 p0 p1 p2)) as [q0 q1 q2].
      unfold vplus, smul; cbn [c0 c1 c2]. apply mk3_eq; ring.
  Qed.
End Swept.

(** ** C35 and C36 as statements about travelled arcs *)
Section Travelled.
  Variables (mu : R) (r v : R -> vec) (T : R).
  Hypothesis Hmu : 0 < mu.
  Hypothesis Hm : two_body_motion mu r v.
  Let h := cross (r 0) (v 0).
  Hypothesis Hh : h <> vzero.
  Hypothesis HT : 0 < T.
  Let d := RInt (fun t : R => vnorm h / vnorm (r t) ^ 2) 0 T.
  Hypothesis Hd : d < 2 * PI.
  Lemma d_pos : 0 < d.
  Proof using Hm Hh HT.
    unfold d. pose proof (swept_incr mu r v Hm Hh 0 T HT) as S. rewrite swept_0 in S. exact S.
  Qed.
  Lemma travelled_short : is_short_way (r 0) (v 0) (r T) = true <-> d < PI.
  Proof using Hm Hh HT Hd.
    assert (N : r 0 <> vzero) by apply Hm.
    assert (Ph : dot (r 0) h = 0) by apply dot_cross_self_l.
    destruct (swept_polar mu r v Hm Hh (r 0) N Ph 1 0 Rlt_0_1) with (t := T) as [rho [A B]].
    { symmetry. apply turn_0; auto. }
    rewrite Rplus_0_l in B. change (swept r v T) with d in B. rewrite B.
    pose proof d_pos as D. rewrite (short_way_angle (r 0) (v 0) rho d) by (auto; lra). lra.
  Qed.
  Let e := eccentricity_vector (r 0) (v 0) mu.
  Hypothesis He : e <> vzero.
  Lemma travelled_perigee :
    d <> PI ->
    ~ (exists k, 0 < k /\ r 0 = smul k e) -> ~ (exists k, 0 < k /\ r T = smul k e) ->
    (pass_perigee (r 0) (v 0) (r T) mu = true <-> exists t k, 0 < t < T /\ 0 < k /\ r t = smul k e).
  Proof using All.
    intros Dp N0 NT. pose proof PI_pos as PIp.
    assert (N : r 0 <> vzero) by apply Hm.
    assert (eh : dot e h = 0) by (apply ecc_dot_h; auto).
    destruct (turn_onto h e Hh He eh (r 0) N) as [rho0 [f (A & B & C)]]; [apply dot_cross_self_l|].
    pose proof (swept_polar mu r v Hm Hh e He eh rho0 f A C) as Pol.
    pose proof d_pos as D.
    destruct (Pol T) as [rhoT [AT CT]]. change (swept r v T) with d in CT.
    assert (F0 : f <> 0).
    { intros ->. apply N0. rewrite C. apply (on_axis r v Hh e He eh rho0 0 A). apply cos_0. }
    assert (FT : f + d <> 2 * PI).
    { intros E. apply NT. rewrite CT. apply (on_axis r v Hh e He eh rhoT (f + d) AT). rewrite E. apply cos_2PI. }
    rewrite (pass_generic (r 0) (v 0) (r T) mu f d rho0 rhoT) by (auto; lra).
    split.
    - intros [phi [Hp Cp]].
      destruct (IVT_interv (fun t => f + swept r v t - phi) 0 T) as [t [Ht Et]].
      + intros t Ht. apply continuity_pt_minus; [|apply continuity_pt_const; intros ? ?; reflexivity].
        eapply der_cont. apply (th_der mu r v Hm f).
      + exact HT.
      + rewrite swept_0. lra.
      + change (swept r v T) with d. lra.
      + destruct (Pol t) as [rho [Ar Br]]. replace (f + swept r v t) with phi in Br by lra.
        assert (t <> 0). { intros ->. rewrite swept_0 in Et. lra. }
        assert (t <> T). { intros ->. change (swept r v T) with d in Et. lra. }
        apply (on_axis r v Hh e He eh rho phi Ar) in Cp. destruct Cp as [k [Hk Ek]].
        exists t, k. split; [lra|]. split; auto. rewrite Br. exact Ek.
    - intros [t [k [Ht [Hk Ek]]]]. exists (f + swept r v t).
      destruct (Pol t) as [rho [Ar Br]].
      pose proof (swept_incr mu r v Hm Hh 0 t (proj1 Ht)) as S0. rewrite swept_0 in S0.
      pose proof (swept_incr mu r v Hm Hh t T (proj2 Ht)) as S1. change (swept r v T) with d in S1.
      split; [lra|]. apply (on_axis r v Hh e He eh rho _ Ar). exists k. split; auto.
      rewrite <- Br. exact Ek.
  Qed.
End Travelled.
