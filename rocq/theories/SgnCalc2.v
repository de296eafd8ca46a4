(** * SgnCalc2: the laws of [SgnCalc] applied to the propagator, the transition
    matrix, the elements and the gravity models. *)
From Coq Require Import ZArith Bool List Lia String.
From Verif Require Import Num OrbIntegrals Uniformulas Lagrange KepEqu StateTrans PropKepler PathCheck Gravity LoopFacts SgnCalc.
Import ListNotations.
Local Open Scope num_scope.

Section Formulas.
  Context {T : Type} {N : Num T} (zero : T -> Prop) (Lw : sgn_laws zero).
  Notation Rel := (Rl zero).
  Let FL := Rfl zero.

  (** the universal functions: even index even, odd index odd *)
  Record UR (c : bool) (chi chi' al : T) : Prop := {
    ur0 : ufunc0 chi' al = ufunc0 chi al;
    ur1 : Rel c (ufunc1 chi al) (ufunc1 chi' al);
    ur2 : ufunc2 chi' al = ufunc2 chi al;
    ur3 : Rel c (ufunc3 chi al) (ufunc3 chi' al);
    ur4 : ufunc4 chi' al = ufunc4 chi al;
    ur5 : Rel c (ufunc5 chi al) (ufunc5 chi' al) }.
  Lemma UR_same (chi al : T) : UR false chi chi al.
  Proof using. constructor; try reflexivity; apply FL. Qed.

  (** what a library must satisfy for [c = true] *)
  Record sym_libm : Prop := {
    y_cos : forall a a', Rel true a a' -> n_cos a' = n_cos a;
    y_cosh : forall a a', Rel true a a' -> n_cosh a' = n_cosh a;
    y_sin : forall a a', Rel true a a' -> Rel true (n_sin a) (n_sin a');
    y_sinh : forall a a', Rel true a a' -> Rel true (n_sinh a) (n_sinh a') }.

  Lemma UR_sym (chi chi' al : T) : sym_libm -> Rel true chi chi' -> UR true chi chi' al.
  Proof using Lw.
    intros [Yc Yh Ys Ysh] R.
    assert (M : forall k : T, Rel true (k * chi) (k * chi')) by (intros k; apply (Rmul zero Lw false true); [apply FL|exact R|reflexivity]).
    pose proof (Rpow2 zero Lw _ _ _ R) as P2. pose proof (Rpow3 zero Lw _ _ _ R) as P3. pose proof (Rpow4 zero Lw _ _ _ R) as P4. pose proof (Rpow5 zero Lw _ _ _ R) as P5.
    assert (D : forall (a a' b : T), Rel true a a' -> Rel true (a / b) (a' / b)) by (intros; now apply (Rdiv zero Lw)).
    assert (K : forall (k a a' : T), Rel true a a' -> Rel true (k * a) (k * a')) by (intros; apply (Rmul zero Lw false true); [apply FL|assumption|reflexivity]).
    constructor; unfold ufunc0, ufunc1, ufunc2, ufunc3, ufunc4, ufunc5;
      (destruct (n_gt al #0); [|destruct (n_lt al #0)]); cbn [where_];
      rewrite ?(Yc _ _ (M _)), ?(Yh _ _ (M _)), ?P2, ?P4; try reflexivity; try exact R; auto 6.
    - apply D, D, (Rsub zero Lw); auto.
    - apply D, D, (Rsub zero Lw); auto.
    - apply D. apply (Radd zero Lw); auto. apply (Rsub zero Lw); auto.
    - apply D. apply (Rsub zero Lw); auto. apply (Rsub zero Lw); auto.
  Qed.

  Section State.
    Context (c : bool) (chi chi' al s0 s0' r0 mu : T) (U : UR c chi chi' al) (S : Rel c s0 s0').
    Lemma F_same : lagrange_F (ufunc2 chi' al) r0 = lagrange_F (ufunc2 chi al) r0.
    Proof using U. now rewrite (ur2 _ _ _ _ U). Qed.
    Lemma G_rel : Rel c (lagrange_G (ufunc1 chi al) (ufunc2 chi al) s0 r0 mu) (lagrange_G (ufunc1 chi' al) (ufunc2 chi' al) s0' r0 mu).
    Proof using U S Lw.
      unfold lagrange_G. rewrite (ur2 _ _ _ _ U). apply (Rdiv zero Lw); [|reflexivity]. apply (Radd zero Lw).
      - apply (Rmul zero Lw false c); [apply FL|apply (ur1 _ _ _ _ U)|first [apply xorb_false_l|apply xorb_false_r]].
      - apply (Rmul zero Lw c false); [exact S|apply FL|first [apply xorb_false_l|apply xorb_false_r]].
    Qed.
    Lemma r_rel : Rel false (equ_of_orb_uvi (ufunc0 chi al) (ufunc1 chi al) (ufunc2 chi al) r0 s0)
                            (equ_of_orb_uvi (ufunc0 chi' al) (ufunc1 chi' al) (ufunc2 chi' al) r0 s0').
    Proof using U S Lw.
      unfold equ_of_orb_uvi. rewrite (ur0 _ _ _ _ U), (ur2 _ _ _ _ U). apply (Radd zero Lw); [|apply FL]. apply (Radd zero Lw); [apply FL|].
      apply (Rmul zero Lw c c); [exact S|apply (ur1 _ _ _ _ U)|apply xorb_nilpotent].
    Qed.
    (** the radius is the same number; the same float unless [r0 U0] and [U2] both vanish *)
    Lemma r_same : ~ (zero (r0 * ufunc0 chi al) /\ zero (ufunc2 chi al)) ->
      (forall z z', zero z -> zero z' -> zero (z + z')) ->
      equ_of_orb_uvi (ufunc0 chi' al) (ufunc1 chi' al) (ufunc2 chi' al) r0 s0' =
      equ_of_orb_uvi (ufunc0 chi al) (ufunc1 chi al) (ufunc2 chi al) r0 s0.
    Proof using U S Lw.
      intros NZ ZZ. unfold equ_of_orb_uvi. rewrite (ur0 _ _ _ _ U), (ur2 _ _ _ _ U).
      destruct (Rmul zero Lw c c false _ _ _ _ S (ur1 _ _ _ _ U) (xorb_nilpotent c)) as [E|[Z1 Z2]]; [cbn [flp] in E; now rewrite E|].
      set (A := r0 * ufunc0 chi al) in *. set (B := s0 * ufunc1 chi al) in *. set (B' := s0' * ufunc1 chi' al) in *.
      assert (C : zero A \/ ~ zero A) by (apply Classical_Prop.classic). destruct C as [C|C].
      - assert (~ zero (ufunc2 chi al)) by tauto. apply (sl_keep_r _ Lw); auto.
      - f_equal. apply (sl_keep_l _ Lw); auto.
    Qed.
    Lemma Ft_rel (r : T) : Rel c (lagrange_Ft (ufunc1 chi al) r r0 mu) (lagrange_Ft (ufunc1 chi' al) r r0 mu).
    Proof using U Lw.
      unfold lagrange_Ft. apply (Rdiv zero Lw); [|reflexivity]. apply (Rmul zero Lw false c); [apply FL|apply (ur1 _ _ _ _ U)|first [apply xorb_false_l|apply xorb_false_r]].
    Qed.
    Lemma Gt_same (r : T) : lagrange_Gt (ufunc2 chi' al) r = lagrange_Gt (ufunc2 chi al) r.
    Proof using U. now rewrite (ur2 _ _ _ _ U). Qed.
    Lemma state_rel (s : V3 bool) (x x' v v' : V3 T) :
      equ_of_orb_uvi (ufunc0 chi' al) (ufunc1 chi' al) (ufunc2 chi' al) r0 s0' =
      equ_of_orb_uvi (ufunc0 chi al) (ufunc1 chi al) (ufunc2 chi al) r0 s0 ->
      RV zero false s x x' -> RV zero c s v v' ->
      RV zero false s (fst (state_at_chi chi al s0 r0 x v mu)) (fst (state_at_chi chi' al s0' r0 x' v' mu)) /\
      RV zero c s (snd (state_at_chi chi al s0 r0 x v mu)) (snd (state_at_chi chi' al s0' r0 x' v' mu)).
    Proof using U S Lw.
      intros E X V. unfold state_at_chi, lagrange_prop. cbn [fst snd]. rewrite E. split.
      - apply (RVadd zero Lw).
        + eapply (RVscale zero Lw false false); [|exact X|reflexivity]. apply Req, F_same.
        + eapply (RVscale zero Lw c c); [apply G_rel|exact V|apply xorb_nilpotent].
      - apply (RVadd zero Lw).
        + eapply (RVscale zero Lw c false); [apply Ft_rel|exact X|first [apply xorb_false_l|apply xorb_false_r]].
        + eapply (RVscale zero Lw false c); [|exact V|first [apply xorb_false_l|apply xorb_false_r]]. apply Req, Gt_same.
    Qed.
  End State.

  (** ** the transition matrix *)
  Lemma dxdx0_rel (c : bool) (s : V3 bool) (r r' v v' r0 r0' v0 v0' : V3 T) (t t' mu : T) :
    (c = true -> sym_libm) ->
    RV zero false s r r' -> RV zero c s v v' -> RV zero false s r0 r0' -> RV zero c s v0 v0' -> Rel c t t' ->
    (c = false -> t' = t /\ vinner r' v' = vinner r v /\ vinner r0' v0' = vinner r0 v0) ->
    let M := dxdx0 r v r0 v0 t mu in let M' := dxdx0 r' v' r0' v0' t' mu in
    RM zero false s (b_rr M) (b_rr M') /\ RM zero c s (b_rv M) (b_rv M') /\ RM zero c s (b_vr M) (b_vr M') /\ RM zero false s (b_vv M) (b_vv M').
  Proof using Lw.
    intros Y HR HV HR0 HV0 Ht Same. cbv zeta. unfold dxdx0. cbv zeta. cbn [b_rr b_rv b_vr b_vv].
    pose proof (Rnorm zero Lw _ _ _ _ HR) as Nr. pose proof (Rnorm zero Lw _ _ _ _ HR0) as Nr0. pose proof (Rnorm zero Lw _ _ _ _ HV0) as Nv0.
    rewrite Nr, Nr0, Nv0. set (al := alpha_of (vector_norm r0) (vector_norm v0) mu).
    assert (S0 : Rel c (sigma_fn r0 v0 mu) (sigma_fn r0' v0' mu)).
    { unfold sigma_fn. apply (Rdiv zero Lw); [|reflexivity]. eapply (Rinner zero Lw false c); [exact HR0|exact HV0|first [apply xorb_false_l|apply xorb_false_r]]. }
    assert (S1 : Rel c (sigma_fn r v mu) (sigma_fn r' v' mu)).
    { unfold sigma_fn. apply (Rdiv zero Lw); [|reflexivity]. eapply (Rinner zero Lw false c); [exact HR|exact HV|first [apply xorb_false_l|apply xorb_false_r]]. }
    set (chi := generalized_anomaly al (sigma_fn r v mu) (sigma_fn r0 v0 mu) t mu).
    set (chi' := generalized_anomaly al (sigma_fn r' v' mu) (sigma_fn r0' v0' mu) t' mu).
    assert (CH : Rel c chi chi').
    { unfold chi, chi', generalized_anomaly. apply (Rsub zero Lw); [|exact S0]. apply (Radd zero Lw); [|exact S1].
      apply (Rmul zero Lw false c); [apply FL|exact Ht|first [apply xorb_false_l|apply xorb_false_r]]. }
    assert (U : UR c chi chi' al).
    { destruct c.
      - apply UR_sym; [apply Y; reflexivity|exact CH].
      - destruct (Same eq_refl) as (E1 & E2 & E3). assert (E : chi' = chi) by (unfold chi, chi', sigma_fn; rewrite E1, E2, E3; reflexivity).
        rewrite E. apply UR_same. }
    set (C := C_func chi (ufunc2 chi al) (ufunc4 chi al) (ufunc5 chi al) t mu).
    set (C' := C_func chi' (ufunc2 chi' al) (ufunc4 chi' al) (ufunc5 chi' al) t' mu).
    assert (HC : Rel c C C').
    { unfold C, C', C_func. rewrite (ur2 _ _ _ _ U), (ur4 _ _ _ _ U). apply (Rdiv zero Lw); [|reflexivity].
      apply (Rsub zero Lw); [apply (Rsub zero Lw)|].
      - apply (Rmul zero Lw false c); [apply FL|apply (ur5 _ _ _ _ U)|first [apply xorb_false_l|apply xorb_false_r]].
      - apply (Rmul zero Lw c false); [exact CH|apply FL|first [apply xorb_false_l|apply xorb_false_r]].
      - apply (Rmul zero Lw c false); [|apply FL|first [apply xorb_false_l|apply xorb_false_r]]. apply (Rmul zero Lw false c); [apply FL|exact Ht|first [apply xorb_false_l|apply xorb_false_r]]. }
    pose proof (F_same c chi chi' al (vector_norm r0) U) as HF. pose proof (G_rel c chi chi' al _ _ (vector_norm r0) mu U S0) as HG.
    pose proof (Ft_rel c chi chi' al (vector_norm r0) mu U (vector_norm r)) as HFt. pose proof (Gt_same c chi chi' al U (vector_norm r)) as HGt.
    rewrite HF, HGt. clear HF HGt.
    pose proof (RVsub zero Lw _ _ _ _ _ _ HV HV0) as DV. pose proof (RVsub zero Lw _ _ _ _ _ _ HR HR0) as DR.
    assert (DD : forall c0 a a' k k', RV zero c0 s a a' -> k' = k -> RV zero c0 s (vdivs a k) (vdivs a' k')) by (intros; now apply (RVdivs zero Lw)).
    pose proof (RMeye zero Lw s) as E3.
    split; [|split; [|split]].
    - unfold prpr0. cbv zeta. rewrite Nr0, Nr. apply (RMadd zero Lw); [apply (RMadd zero Lw); [apply (RMadd zero Lw)|]|].
      + eapply (RMscale zero Lw false false); [apply FL| |reflexivity]. eapply (RMouter zero Lw c c); [exact DV|exact DV|apply xorb_nilpotent].
      + eapply (RMscale zero Lw false false); [apply FL| |reflexivity]. eapply (RMouter zero Lw false false); [eapply DD; eauto|eapply DD; eauto|reflexivity].
      + eapply (RMscale zero Lw c c); [|eapply (RMouter zero Lw c false); [exact HV|eapply DD; eauto|first [apply xorb_false_l|apply xorb_false_r]]|apply xorb_nilpotent].
        apply (Rdiv zero Lw); [exact HC|reflexivity].
      + eapply (RMscale zero Lw false false); [apply FL|exact E3|reflexivity].
    - unfold prpv0. rewrite Nr0. apply (RMadd zero Lw); [apply (RMadd zero Lw)|].
      + eapply (RMscale zero Lw false c); [apply FL| |first [apply xorb_false_l|apply xorb_false_r]]. apply (RMsub zero Lw).
        * eapply (RMouter zero Lw false c); [exact DR|exact HV0|first [apply xorb_false_l|apply xorb_false_r]].
        * eapply (RMouter zero Lw c false); [exact DV|exact HR0|first [apply xorb_false_l|apply xorb_false_r]].
      + eapply (RMscale zero Lw c false); [|eapply (RMouter zero Lw c c); [exact HV|exact HV0|apply xorb_nilpotent]|first [apply xorb_false_l|apply xorb_false_r]].
        apply (Rdiv zero Lw); [exact HC|reflexivity].
      + eapply (RMscale zero Lw c false); [exact HG|exact E3|first [apply xorb_false_l|apply xorb_false_r]].
    - unfold pvpr0. cbv zeta. rewrite Nr0, Nr.
      apply (RMsub zero Lw); [apply (RMadd zero Lw); [apply (RMsub zero Lw)|]|].
      + apply (RMneg zero Lw). eapply (RMouter zero Lw c false); [exact DV|eapply DD; eauto|first [apply xorb_false_l|apply xorb_false_r]].
      + eapply (RMouter zero Lw false c); [eapply DD; eauto|exact DV|first [apply xorb_false_l|apply xorb_false_r]].
      + eapply (RMscale zero Lw c false); [exact HFt| |first [apply xorb_false_l|apply xorb_false_r]]. apply (RMadd zero Lw); [apply (RMsub zero Lw); [exact E3|]|].
        * eapply (RMouter zero Lw false false); [eapply DD; eauto|eapply DD; eauto|reflexivity].
        * eapply (RMmul zero Lw c c); [| |apply xorb_nilpotent].
          -- apply (RMdivs zero Lw); [reflexivity|]. apply (RMsub zero Lw).
             ++ eapply (RMouter zero Lw false c); [exact HR|exact HV|first [apply xorb_false_l|apply xorb_false_r]].
             ++ eapply (RMouter zero Lw c false); [exact HV|exact HR|first [apply xorb_false_l|apply xorb_false_r]].
          -- eapply (RMouter zero Lw false c); [eapply DD; eauto|exact DV|first [apply xorb_false_l|apply xorb_false_r]].
      + eapply (RMscale zero Lw c false); [|eapply (RMouter zero Lw false false); [eapply DD; eauto|eapply DD; eauto|reflexivity]|first [apply xorb_false_l|apply xorb_false_r]].
        apply (Rdiv zero Lw); [|reflexivity]. apply (Rmul zero Lw false c); [apply FL|exact HC|first [apply xorb_false_l|apply xorb_false_r]].
    - unfold pvpv0. cbv zeta. rewrite Nr0, Nr. apply (RMadd zero Lw); [apply (RMsub zero Lw); [apply (RMadd zero Lw)|]|].
      + eapply (RMscale zero Lw false false); [apply FL| |reflexivity]. eapply (RMouter zero Lw c c); [exact DV|exact DV|apply xorb_nilpotent].
      + apply (RMdivs zero Lw); [reflexivity|]. apply (RMright zero Lw); [reflexivity|].
        eapply (RMscale zero Lw false false); [apply FL| |reflexivity]. eapply (RMouter zero Lw false false); [eapply DD; eauto|eapply DD; eauto|reflexivity].
      + eapply (RMscale zero Lw c c); [|eapply (RMouter zero Lw false c); [eapply DD; eauto|exact HV0|first [apply xorb_false_l|apply xorb_false_r]]|apply xorb_nilpotent].
        apply (Rdiv zero Lw); [exact HC|reflexivity].
      + eapply (RMscale zero Lw false false); [apply FL|exact E3|reflexivity].
  Qed.

  (** ** mirrored states: every scalar is the same float *)
  Lemma sigma_mirror (s : V3 bool) (x v : V3 T) (mu : T) : sigma_fn (vflip false s x) (vflip false s v) mu = sigma_fn x v mu.
  Proof using Lw. unfold sigma_fn. now rewrite (inner_flip zero Lw). Qed.
  Lemma norm_flip (c : bool) (s : V3 bool) (x : V3 T) : vector_norm (vflip c s x) = vector_norm x.
  Proof using Lw. unfold vector_norm. now rewrite (inner_flip zero Lw). Qed.
  Lemma kepler1_mirror (s : V3 bool) (t : T) (x v : V3 T) (mu : T) :
    RV zero false s (fst (kepler1 t x v mu)) (fst (kepler1 t (vflip false s x) (vflip false s v) mu)) /\
    RV zero false s (snd (kepler1 t x v mu)) (snd (kepler1 t (vflip false s x) (vflip false s v) mu)).
  Proof using Lw.
    unfold kepler1. cbv zeta. rewrite !norm_flip, sigma_mirror.
    apply (state_rel false); [apply UR_same|apply FL|reflexivity|apply RVflip|apply RVflip].
  Qed.
  Lemma dxdx0_mirror (s : V3 bool) (r v r0 v0 : V3 T) (t mu : T) :
    let M := dxdx0 r v r0 v0 t mu in let M' := dxdx0 (vflip false s r) (vflip false s v) (vflip false s r0) (vflip false s v0) t mu in
    RM zero false s (b_rr M) (b_rr M') /\ RM zero false s (b_rv M) (b_rv M') /\ RM zero false s (b_vr M) (b_vr M') /\ RM zero false s (b_vv M) (b_vv M').
  Proof using Lw.
    apply (dxdx0_rel false); try apply RVflip; [discriminate|apply FL|]. intros _. rewrite !(inner_flip zero Lw). repeat split; reflexivity.
  Qed.
  Lemma dxdx0_reverse (Y : sym_libm) (s : V3 bool) (r v r0 v0 : V3 T) (t mu : T) :
    let M := dxdx0 r v r0 v0 t mu in let M' := dxdx0 (vflip false s r) (vflip true s v) (vflip false s r0) (vflip true s v0) (- t) mu in
    RM zero false s (b_rr M) (b_rr M') /\ RM zero true s (b_rv M) (b_rv M') /\ RM zero true s (b_vr M) (b_vr M') /\ RM zero false s (b_vv M) (b_vv M').
  Proof using Lw.
    apply (dxdx0_rel true); try apply RVflip; [intros _; exact Y|left; reflexivity|discriminate].
  Qed.

  (** ** the universal Kepler solver backwards *)
  Section Solve.
    Context (Y : sym_libm) (al r0 s0 s0' mu : T) (S : Rel true s0 s0').
    Context (NZ : forall chi : T, ~ (zero (r0 * ufunc0 chi al) /\ zero (ufunc2 chi al))).
    Context (ZZ : forall z z' : T, zero z -> zero z' -> zero (z + z')).
    Context (t t' : T) (HT : Rel true t t').
    Definition carry (p q : Z * T * T) : Prop := fst (fst p) = fst (fst q) /\ Rel true (snd (fst p)) (snd (fst q)).
    Lemma res_rel (chi chi' : T) : Rel true chi chi' -> Rel true (kepler_equ_uni chi al r0 s0 t mu) (kepler_equ_uni chi' al r0 s0' t' mu).
    Proof using Y S HT Lw.
      intros H. pose proof (UR_sym _ _ al Y H) as U. unfold kepler_equ_uni. rewrite (ur2 _ _ _ _ U).
      repeat first [apply (Radd zero Lw) | apply (Rsub zero Lw)].
      all: first [apply (Rmul zero Lw false true); [apply FL|first [apply (ur1 _ _ _ _ U)|exact HT]|reflexivity]
                 | apply (Rmul zero Lw true false); [exact S|apply FL|reflexivity] | apply (ur3 _ _ _ _ U)].
    Qed.
    Lemma dchi_same (chi chi' : T) : Rel true chi chi' -> dchi chi' al r0 s0' = dchi chi al r0 s0.
    Proof using Y S NZ ZZ Lw.
      intros H. pose proof (UR_sym _ _ al Y H) as U. unfold dchi. apply (r_same true); auto.
    Qed.
    Lemma step_rel (tol : T) (n : Z) (p q : Z * T * T) : carry p q ->
      uni_cond t' al r0 s0' mu tol n q = uni_cond t al r0 s0 mu tol n p /\ carry (uni_body t al r0 s0 mu p) (uni_body t' al r0 s0' mu q).
    Proof using Y S HT NZ ZZ Lw.
      destruct p as [[i a] b], q as [[j a'] b']. intros [E R]. cbn [fst snd] in E, R. subst j. unfold uni_cond, uni_body.
      pose proof (res_rel _ _ R) as F. split.
      - f_equal. unfold exceeds, n_gt. now rewrite (sl_abs _ Lw _ _ _ F).
      - split; [reflexivity|]. cbn [fst snd]. apply (Rsub zero Lw); [exact R|]. apply (Rdiv zero Lw); [exact F|now apply dchi_same].
    Qed.
    Lemma loop_rel (tol : T) (n : Z) (k : nat) : forall p q, carry p q ->
      match while_fuel k (uni_cond t al r0 s0 mu tol n) (uni_body t al r0 s0 mu) p,
            while_fuel k (uni_cond t' al r0 s0' mu tol n) (uni_body t' al r0 s0' mu) q with
      | Some a, Some b => carry a b | None, None => True | _, _ => False end.
    Proof using Y S HT NZ ZZ Lw.
      induction k as [|k IH]; intros p q H; [exact I|]. cbn [while_fuel].
      destruct (step_rel tol n p q H) as [EC EB]. rewrite EC. destruct (uni_cond t al r0 s0 mu tol n p); [apply IH, EB|exact H].
    Qed.
    Lemma guess_rel : Rel true (uni_guess t al mu) (uni_guess t' al mu).
    Proof using HT Lw. unfold uni_guess. apply (Rmul zero Lw false true); [apply FL|exact HT|reflexivity]. Qed.
    Lemma solve_rel (tol : T) (n : Z) : Rel true (solve_kepler_uni t al r0 s0 mu tol n) (solve_kepler_uni t' al r0 s0' mu tol n).
    Proof using Y S HT NZ ZZ Lw.
      unfold solve_kepler_uni, uni_run.
      pose proof (loop_rel tol n (loop_fuel n) (uni_init t al mu tol) (uni_init t' al mu tol) (conj eq_refl guess_rel)) as L.
      destruct (while_fuel _ _ (uni_body t al r0 s0 mu) _) as [[[i a] b]|], (while_fuel _ _ (uni_body t' al r0 s0' mu) _) as [[[j a'] b']|]; try contradiction.
      - exact (proj2 L).
      - apply guess_rel.
    Qed.
  End Solve.

  Lemma kepler1_reverse (Y : sym_libm) (ZZ : forall z z' : T, zero z -> zero z' -> zero (z + z')) (t : T) (x v : V3 T) (mu : T) :
    let r0 := vector_norm x in let al := alpha_of r0 (vector_norm v) mu in
    (forall chi : T, ~ (zero (r0 * ufunc0 chi al) /\ zero (ufunc2 chi al))) ->
    let s := mk3 false false false in
    RV zero false s (fst (kepler1 t x v mu)) (fst (kepler1 (- t) x (vneg v) mu)) /\
    RV zero true s (snd (kepler1 t x v mu)) (snd (kepler1 (- t) x (vneg v) mu)).
  Proof using Lw.
    intros r0 al NZ s. unfold kepler1. cbv zeta.
    assert (Ev : vneg v = vflip true s v) by reflexivity. rewrite Ev, norm_flip. fold r0 al.
    assert (S : Rel true (sigma_fn x v mu) (sigma_fn x (vflip true s v) mu)).
    { unfold sigma_fn. apply (Rdiv zero Lw); [|reflexivity]. eapply (Rinner zero Lw false true true s); [|apply RVflip|reflexivity]. repeat split; apply FL. }
    assert (X : RV zero false s x x) by (repeat split; apply FL).
    assert (HT : Rel true t (- t)) by (left; reflexivity).
    pose proof (solve_rel Y al r0 _ _ mu S NZ ZZ t _ HT default_tol uni_max_iter) as R.
    set (chi := solve_kepler_uni t al r0 (sigma_fn x v mu) mu default_tol uni_max_iter) in *.
    set (chi' := solve_kepler_uni (- t) al r0 (sigma_fn x (vflip true s v) mu) mu default_tol uni_max_iter) in *.
    pose proof (UR_sym _ _ al Y R) as U.
    apply (state_rel true); [exact U|exact S| |exact X|apply RVflip].
    apply (r_same true); auto.
  Qed.
End Formulas.
