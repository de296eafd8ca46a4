(** * AdFacts: the formulas of the model, run on dual numbers, return their derivatives *)
From Coq Require Import Reals Lra ZArith List.
From Coquelicot Require Import Coquelicot.
From Verif Require Import Num NumR NumD Spec SpecAd RLib Ana Stm Atan2 OrbFacts UFacts KepState AdOps.
From Verif Require Import OrbIntegrals Uniformulas Lagrange KepEqu RotMat OrbElements StateTrans PropKepler.
Local Open Scope R_scope.

Ltac ad1 :=
  lazymatch goal with
  | |- carries _ _ (@n_Z _ _ _) => apply a_Z
  | |- carries _ _ (@n_dec _ _ _ _) => apply a_dec
  | |- carries _ _ (@n_pi _ _) => apply a_pi
  | |- carries _ _ (@n_add _ _ _ _) => apply a_add
  | |- carries _ _ (@n_sub _ _ _ _) => apply a_sub
  | |- carries _ _ (@n_mul _ _ _ _) => apply a_mul
  | |- carries _ _ (@n_div _ _ _ _) => apply a_div
  | |- carries _ _ (@n_neg _ _ _) => apply a_neg
  | |- carries _ _ (@n_sqrt _ _ _) => apply a_sqrt
  | |- carries _ _ (@n_cbrt _ _ _) => apply a_cbrt
  | |- carries _ _ (@n_sin _ _ _) => apply a_sin
  | |- carries _ _ (@n_cos _ _ _) => apply a_cos
  | |- carries _ _ (@n_sinh _ _ _) => apply a_sinh
  | |- carries _ _ (@n_cosh _ _ _) => apply a_cosh
  | |- carries _ _ (@n_log _ _ _) => apply a_log
  | |- carries _ _ (@npow _ _ _ _) => apply a_pow
  | |- carries _ _ _ => assumption
  end.
Ltac ad := repeat ad1.
Ltac rr := cbn [n_Z n_dec n_pi n_add n_sub n_mul n_div n_neg n_sqrt n_sin n_cos n_sinh n_cosh n_log npow npow_aux mul_opt Num_R].

Section Vec.
  Context (x y : R -> vec) (s : R) (a b : V3 dual).
  Hypothesis Hx : vcarries x s a.
  Hypothesis Hy : vcarries y s b.
  Lemma vc_eq : x s = vval a. Proof using Hx. destruct Hx as ((E0 & _) & (E1 & _) & (E2 & _)). apply V3_eq; assumption. Qed.
  Lemma va_add : vcarries (fun u => vadd (x u) (y u)) s (@vadd _ Num_D a b).
  Proof using Hx Hy. destruct Hx as (X0 & X1 & X2), Hy as (Y0 & Y1 & Y2). unfold vadd, vzip3; split; [|split]; cbn [c0 c1 c2]; ad. Qed.
  Lemma va_sub : vcarries (fun u => vsub (x u) (y u)) s (@vsub _ Num_D a b).
  Proof using Hx Hy. destruct Hx as (X0 & X1 & X2), Hy as (Y0 & Y1 & Y2). unfold vsub, vzip3; split; [|split]; cbn [c0 c1 c2]; ad. Qed.
  Lemma va_inner : carries (fun u => vinner (x u) (y u)) s (@vinner _ Num_D a b).
  Proof using Hx Hy. destruct Hx as (X0 & X1 & X2), Hy as (Y0 & Y1 & Y2). unfold vinner. ad. Qed.
  Lemma va_cross : vcarries (fun u => vcross (x u) (y u)) s (@vcross _ Num_D a b).
  Proof using Hx Hy. destruct Hx as (X0 & X1 & X2), Hy as (Y0 & Y1 & Y2). unfold vcross. split; [|split]; cbn [c0 c1 c2]; ad. Qed.
  Lemma va_scale k c : carries k s c -> vcarries (fun u => vscale (k u) (x u)) s (@vscale _ Num_D c a).
  Proof using Hx. intros K. destruct Hx as (X0 & X1 & X2). unfold vscale, vmap3. split; [|split]; cbn [c0 c1 c2]; ad. Qed.
  Lemma va_divs k c : carries k s c -> k s <> 0 -> vcarries (fun u => vdivs (x u) (k u)) s (@vdivs _ Num_D a c).
  Proof using Hx. intros K N. destruct Hx as (X0 & X1 & X2). unfold vdivs, vmap3. split; [|split]; cbn [c0 c1 c2]; ad; exact N. Qed.
End Vec.
Lemma va_norm (x : R -> vec) s a : vcarries x s a -> x s <> vzero -> carries (fun u => vector_norm (x u)) s (@vector_norm _ Num_D a).
Proof.
  intros Hx N. unfold vector_norm. apply a_sqrt; [now apply va_inner|]. change (0 < dot (x s) (x s)). now apply dot_pos.
Qed.
Lemma norm_neq (x : vec) : x <> vzero -> vector_norm x <> 0.
Proof. intros H. rewrite vector_norm_vnorm. now apply vnorm_neq. Qed.
Lemma norm_gt (x : vec) : x <> vzero -> 0 < vector_norm x.
Proof. intros H. rewrite vector_norm_vnorm. now apply vnorm_pos. Qed.

Section Formulas.
  Context (s : R).
  Lemma ad_orb_period a mu da dm : carries a s da -> carries mu s dm -> 0 < a s -> 0 < mu s ->
    carries (fun u => orb_period (a u) (mu u)) s (@orb_period _ Num_D da dm).
  Proof using.
    intros A M Pa Pm. unfold orb_period. ad; [rr; lra|]. rr. apply Rdiv_lt_0_compat; [|exact Pm]. repeat apply Rmult_lt_0_compat; assumption.
  Qed.
  Lemma ad_a_from_period P mu dP dm : carries P s dP -> carries mu s dm -> P s <> 0 -> 0 < mu s ->
    carries (fun u => a_from_period (P u) (mu u)) s (@a_from_period _ Num_D dP dm).
  Proof using.
    intros A M Np Pm. unfold a_from_period. pose proof PI_RGT_0. ad; rr; [lra|nra|].
    assert (0 < P s * P s) by nra. assert (0 < PI * PI) by nra. assert (0 < P s * P s * mu s) by (apply Rmult_lt_0_compat; assumption).
    apply Rgt_not_eq. apply Rdiv_lt_0_compat; [|assumption]. apply Rdiv_lt_0_compat; lra.
  Qed.
  Lemma ad_semimajor_axis r v mu dr dv dm : carries r s dr -> carries v s dv -> carries mu s dm ->
    r s <> 0 -> mu s <> 0 -> 2 / r s - v s ^ 2 / mu s <> 0 ->
    carries (fun u => semimajor_axis (r u) (v u) (mu u)) s (@semimajor_axis _ Num_D dr dv dm).
  Proof using. intros A V M N1 N2 N3. unfold semimajor_axis. ad; rr; try assumption. intros E. apply N3. rewrite <- E. field. auto. Qed.
  Lemma ad_semiparameter h mu dh dm : carries h s dh -> carries mu s dm -> mu s <> 0 ->
    carries (fun u => semiparameter (h u) (mu u)) s (@semiparameter _ Num_D dh dm).
  Proof using. intros A M N. unfold semiparameter. ad; exact N. Qed.
  Lemma ad_mean_motion P dP : carries P s dP -> P s <> 0 -> carries (fun u => mean_motion (P u)) s (@mean_motion _ Num_D dP).
  Proof using. intros A N. unfold mean_motion. ad; exact N. Qed.
  Lemma ad_equ_of_orbit p e f dp de df : carries p s dp -> carries e s de -> carries f s df -> 1 + e s * cos (f s) <> 0 ->
    carries (fun u => equ_of_orbit (p u) (e u) (f u)) s (@equ_of_orbit _ Num_D dp de df).
  Proof using. intros A B C N. unfold equ_of_orbit. ad; exact N. Qed.
  Lemma ad_equ_of_orb_uvi u0 u1 u2 r0 s0 d0 d1 d2 dr ds : carries u0 s d0 -> carries u1 s d1 -> carries u2 s d2 -> carries r0 s dr -> carries s0 s ds ->
    carries (fun u => equ_of_orb_uvi (u0 u) (u1 u) (u2 u) (r0 u) (s0 u)) s (@equ_of_orb_uvi _ Num_D d0 d1 d2 dr ds).
  Proof using. intros. unfold equ_of_orb_uvi. ad. Qed.
  Lemma ad_radius_periapsis p e dp de : carries p s dp -> carries e s de -> 1 + e s <> 0 ->
    carries (fun u => radius_periapsis (p u) (e u)) s (@radius_periapsis _ Num_D dp de).
  Proof using. intros A B N. unfold radius_periapsis. ad; exact N. Qed.
  Lemma ad_radius_apoapsis p e dp de : carries p s dp -> carries e s de -> 1 - e s <> 0 ->
    carries (fun u => radius_apoapsis (p u) (e u)) s (@radius_apoapsis _ Num_D dp de).
  Proof using. intros A B N. unfold radius_apoapsis. ad; exact N. Qed.
  Lemma ad_semipara_from_ae a e da de : carries a s da -> carries e s de ->
    carries (fun u => semipara_from_ae (a u) (e u)) s (@semipara_from_ae _ Num_D da de).
  Proof using. intros A B. unfold semipara_from_ae. ad. Qed.
  Lemma ad_a_from_pe p e dp de : carries p s dp -> carries e s de -> e s ^ 2 <> 1 ->
    carries (fun u => a_from_pe (p u) (e u)) s (@a_from_pe _ Num_D dp de).
  Proof using. intros A B N. unfold a_from_pe. ad. rr. intros E. apply N. rewrite <- (Rplus_0_r (e s ^ 2)), <- E. ring. Qed.

  Lemma ad_angular_momentum r v dr dv : vcarries r s dr -> vcarries v s dv ->
    vcarries (fun u => angular_momentum (r u) (v u)) s (@angular_momentum _ Num_D dr dv).
  Proof using. intros A B. unfold angular_momentum. now apply va_cross. Qed.
  Lemma ad_eccentricity_vector r v mu dr dv dm : vcarries r s dr -> vcarries v s dv -> carries mu s dm -> r s <> vzero -> mu s <> 0 ->
    vcarries (fun u => eccentricity_vector (r u) (v u) (mu u)) s (@eccentricity_vector _ Num_D dr dv dm).
  Proof using.
    intros A B M N1 N2. unfold eccentricity_vector. cbv zeta. apply va_sub.
    - apply (va_divs (fun u => vcross (v u) (angular_momentum (r u) (v u)))); [|exact M|exact N2]. apply va_cross; [exact B|]. now apply ad_angular_momentum.
    - apply va_divs; [exact A|now apply va_norm|now apply norm_neq].
  Qed.
  Lemma ad_sigma_fn r v mu dr dv dm : vcarries r s dr -> vcarries v s dv -> carries mu s dm -> 0 < mu s ->
    carries (fun u => sigma_fn (r u) (v u) (mu u)) s (@sigma_fn _ Num_D dr dv dm).
  Proof using.
    intros A B M P. unfold sigma_fn. apply a_div; [now apply va_inner|now apply a_sqrt|]. apply Rgt_not_eq. now apply sqrt_lt_R0.
  Qed.

  (** ** Universal functions *)
  Section Uni.
    Context (chi al : R -> R) (dc da : dual).
    Hypothesis C : carries chi s dc.
    Hypothesis A : carries al s da.
    Hypothesis N : al s <> 0.
    Let P1 : 0 < al s -> sqrt (al s) <> 0. Proof. intros H. apply Rgt_not_eq. now apply sqrt_lt_R0. Qed.
    Let P2 : al s < 0 -> sqrt (- al s) <> 0. Proof. intros H. apply Rgt_not_eq. apply sqrt_lt_R0. lra. Qed.
    Lemma a_cases (f g : R -> R) (h : R -> R) cf cg ch :
      (0 < al s -> carries f s cf) -> (al s < 0 -> carries g s cg) ->
      carries (fun u => where_ (n_gt (al u) (n_Z 0)) (f u) (where_ (n_lt (al u) (n_Z 0)) (g u) (h u))) s
        (where_ (@n_gt _ Num_D da (@n_Z _ Num_D 0)) cf (where_ (@n_lt _ Num_D da (@n_Z _ Num_D 0)) cg ch)).
    Proof using A N.
      intros F G. unfold n_gt. pose proof (a_Z 0 s) as Q0.
      apply (a_if (fun _ => n_Z 0) al); [exact Q0|exact A|cbn; lra|intros L; apply F; exact L|].
      intros L. cbn in L.
      apply (a_loc g).
      - apply (filter_imp (fun u => al u < 0)); [|exact (ev_lt al s _ 0 (proj2 A) L)]. intros u Hu. unfold where_. cbn [n_lt n_Z Num_R].
        assert (E : ltb (al u) 0 = true) by (apply ltb_true; exact Hu). now rewrite E.
      - unfold where_. change (@n_lt _ Num_D da (@n_Z _ Num_D 0)) with (ltb (val da) 0). rewrite (carries_val _ _ _ A).
        assert (E : ltb (al s) 0 = true) by (apply ltb_true; exact L). rewrite E. now apply G.
    Qed.
    Ltac fin := rr; first [assumption | apply P1; assumption | apply P2; assumption | lra | nra | idtac].
    Lemma ad_ufunc0 : carries (fun u => ufunc0 (chi u) (al u)) s (@ufunc0 _ Num_D dc da).
    Proof using A C N. unfold ufunc0. apply a_cases; intros L; ad; fin. Qed.
    Lemma ad_ufunc1 : carries (fun u => ufunc1 (chi u) (al u)) s (@ufunc1 _ Num_D dc da).
    Proof using A C N. unfold ufunc1. apply a_cases; intros L; ad; fin. Qed.
    Lemma ad_ufunc2 : carries (fun u => ufunc2 (chi u) (al u)) s (@ufunc2 _ Num_D dc da).
    Proof using A C N. unfold ufunc2. apply a_cases; intros L; ad; fin. Qed.
    Lemma ad_ufunc3 : carries (fun u => ufunc3 (chi u) (al u)) s (@ufunc3 _ Num_D dc da).
    Proof using A C N. unfold ufunc3. apply a_cases; intros L; ad; fin. Qed.
    Lemma ad_ufunc4 : carries (fun u => ufunc4 (chi u) (al u)) s (@ufunc4 _ Num_D dc da).
    Proof using A C N. unfold ufunc4. apply a_cases; intros L; ad; fin. Qed.
    Lemma ad_ufunc5 : carries (fun u => ufunc5 (chi u) (al u)) s (@ufunc5 _ Num_D dc da).
    Proof using A C N.
      assert (Q : al s * al s * al s <> 0) by (intros E; apply Rmult_integral in E; destruct E as [E|E]; [apply Rmult_integral in E; tauto|tauto]).
      unfold ufunc5. apply a_cases; intros L; ad; rr; try lra; intros E; apply Q; nra.
    Qed.
  End Uni.
End Formulas.

Section Kepler.
  Context (s : R).
  Lemma ad_lagrange_F u2 r0 d2 dr : carries u2 s d2 -> carries r0 s dr -> r0 s <> 0 ->
    carries (fun u => lagrange_F (u2 u) (r0 u)) s (@lagrange_F _ Num_D d2 dr).
  Proof using. intros A B N. unfold lagrange_F. ad; exact N. Qed.
  Lemma ad_lagrange_G u1 u2 s0 r0 mu d1 d2 ds dr dm : carries u1 s d1 -> carries u2 s d2 -> carries s0 s ds -> carries r0 s dr -> carries mu s dm -> 0 < mu s ->
    carries (fun u => lagrange_G (u1 u) (u2 u) (s0 u) (r0 u) (mu u)) s (@lagrange_G _ Num_D d1 d2 ds dr dm).
  Proof using. intros. unfold lagrange_G. ad; try assumption. now apply Rgt_not_eq, sqrt_lt_R0. Qed.
  Lemma ad_lagrange_Ft u1 r r0 mu d1 d dr dm : carries u1 s d1 -> carries r s d -> carries r0 s dr -> carries mu s dm -> r s <> 0 -> r0 s <> 0 -> 0 < mu s ->
    carries (fun u => lagrange_Ft (u1 u) (r u) (r0 u) (mu u)) s (@lagrange_Ft _ Num_D d1 d dr dm).
  Proof using. intros. unfold lagrange_Ft. ad; assumption. Qed.
  Lemma ad_lagrange_Gt u2 r d2 d : carries u2 s d2 -> carries r s d -> r s <> 0 ->
    carries (fun u => lagrange_Gt (u2 u) (r u)) s (@lagrange_Gt _ Num_D d2 d).
  Proof using. intros A B N. unfold lagrange_Gt. ad; exact N. Qed.
  Lemma ad_lagrange_prop F G Ft Gt r v dF dG dFt dGt dr dv : carries F s dF -> carries G s dG -> carries Ft s dFt -> carries Gt s dGt -> vcarries r s dr -> vcarries v s dv ->
    vcarries (fun u => fst (lagrange_prop (F u) (G u) (Ft u) (Gt u) (r u) (v u))) s (fst (@lagrange_prop _ Num_D dF dG dFt dGt dr dv)) /\
    vcarries (fun u => snd (lagrange_prop (F u) (G u) (Ft u) (Gt u) (r u) (v u))) s (snd (@lagrange_prop _ Num_D dF dG dFt dGt dr dv)).
  Proof using.
    intros H1 H2 H3 H4 H5 H6. unfold lagrange_prop. cbn [fst snd]. split;
      (apply (va_add (fun u => vscale _ (r u)) (fun u => vscale _ (v u))); apply va_scale; assumption).
  Qed.
  Lemma ad_kepler_equ_elps E e M dE_ de dM : carries E s dE_ -> carries e s de -> carries M s dM ->
    carries (fun u => kepler_equ_elps (E u) (e u) (M u)) s (@kepler_equ_elps _ Num_D dE_ de dM).
  Proof using. intros. unfold kepler_equ_elps. ad. Qed.
  Lemma ad_kepler_equ_hypb H e M dH_ de dM : carries H s dH_ -> carries e s de -> carries M s dM ->
    carries (fun u => kepler_equ_hypb (H u) (e u) (M u)) s (@kepler_equ_hypb _ Num_D dH_ de dM).
  Proof using. intros. unfold kepler_equ_hypb. ad. Qed.
  Lemma ad_mean_anomaly_elps a t mu da dt dm : carries a s da -> carries t s dt -> carries mu s dm -> 0 < a s -> 0 < mu s ->
    carries (fun u => mean_anomaly_elps (a u) (t u) (mu u)) s (@mean_anomaly_elps _ Num_D da dt dm).
  Proof using.
    intros A B C P Q. unfold mean_anomaly_elps. assert (H : 0 < a s * (a s * a s)) by (repeat apply Rmult_lt_0_compat; assumption).
    ad; rr; [lra|]. apply Rdiv_lt_0_compat; lra.
  Qed.
  Lemma ad_mean_anomaly_hypb a t mu da dt dm : carries a s da -> carries t s dt -> carries mu s dm -> a s < 0 -> 0 < mu s ->
    carries (fun u => mean_anomaly_hypb (a u) (t u) (mu u)) s (@mean_anomaly_hypb _ Num_D da dt dm).
  Proof using.
    intros A B C P Q. unfold mean_anomaly_hypb. assert (H : 0 < - a s * (a s * a s)) by (apply Rmult_lt_0_compat; nra).
    ad; rr; [nra|]. apply Rdiv_lt_0_compat; lra.
  Qed.
  Lemma ad_generalized_anomaly al sg s0 t mu d1 d2 d3 d4 d5 : carries al s d1 -> carries sg s d2 -> carries s0 s d3 -> carries t s d4 -> carries mu s d5 -> 0 < mu s ->
    carries (fun u => generalized_anomaly (al u) (sg u) (s0 u) (t u) (mu u)) s (@generalized_anomaly _ Num_D d1 d2 d3 d4 d5).
  Proof using. intros. unfold generalized_anomaly. ad; assumption. Qed.
  Lemma ad_kepler_equ_uni chi al r0 s0 t mu d1 d2 d3 d4 d5 d6 : carries chi s d1 -> carries al s d2 -> carries r0 s d3 -> carries s0 s d4 -> carries t s d5 -> carries mu s d6 ->
    al s <> 0 -> 0 < mu s ->
    carries (fun u => kepler_equ_uni (chi u) (al u) (r0 u) (s0 u) (t u) (mu u)) s (@kepler_equ_uni _ Num_D d1 d2 d3 d4 d5 d6).
  Proof using.
    intros H1 H2 H3 H4 H5 H6 N P. unfold kepler_equ_uni.
    pose proof (ad_ufunc1 s chi al d1 d2 H1 H2 N). pose proof (ad_ufunc2 s chi al d1 d2 H1 H2 N). pose proof (ad_ufunc3 s chi al d1 d2 H1 H2 N). ad; assumption.
  Qed.
  Lemma ad_dchi chi al r0 s0 d1 d2 d3 d4 : carries chi s d1 -> carries al s d2 -> carries r0 s d3 -> carries s0 s d4 -> al s <> 0 ->
    carries (fun u => dchi (chi u) (al u) (r0 u) (s0 u)) s (@dchi _ Num_D d1 d2 d3 d4).
  Proof using.
    intros H1 H2 H3 H4 N. unfold dchi. apply ad_equ_of_orb_uvi; try assumption; [now apply ad_ufunc0|now apply ad_ufunc1|now apply ad_ufunc2].
  Qed.
  Lemma ad_C_func chi u2 u4 u5 t mu d1 d2 d3 d4 d5 d6 : carries chi s d1 -> carries u2 s d2 -> carries u4 s d3 -> carries u5 s d4 -> carries t s d5 -> carries mu s d6 -> 0 < mu s ->
    carries (fun u => C_func (chi u) (u2 u) (u4 u) (u5 u) (t u) (mu u)) s (@C_func _ Num_D d1 d2 d3 d4 d5 d6).
  Proof using. intros. unfold C_func. ad; try assumption. now apply Rgt_not_eq, sqrt_lt_R0. Qed.
  Lemma ad_alpha_of r v mu dr dv dm : carries r s dr -> carries v s dv -> carries mu s dm -> r s <> 0 -> mu s <> 0 -> 2 / r s - v s ^ 2 / mu s <> 0 ->
    carries (fun u => alpha_of (r u) (v u) (mu u)) s (@alpha_of _ Num_D dr dv dm).
  Proof using.
    intros A B C N1 N2 N3. unfold alpha_of. apply a_div; [apply a_dec|now apply ad_semimajor_axis|]. unfold semimajor_axis. rr.
    assert (N4 : 2 / r s - v s * v s / mu s <> 0) by (intros E; apply N3; rewrite <- E; field; auto).
    unfold Rdiv at 1. rewrite Rmult_1_l. now apply Rinv_neq_0_compat.
  Qed.
  (** The state at a given universal anomaly. *)
  Lemma ad_state_at_chi chi al s0 r0 (rv vv : R -> vec) mu d1 d2 d3 d4 dr dv d5 :
    carries chi s d1 -> carries al s d2 -> carries s0 s d3 -> carries r0 s d4 -> vcarries rv s dr -> vcarries vv s dv -> carries mu s d5 ->
    al s <> 0 -> r0 s <> 0 -> 0 < mu s -> dchi (chi s) (al s) (r0 s) (s0 s) <> 0 ->
    vcarries (fun u => fst (state_at_chi (chi u) (al u) (s0 u) (r0 u) (rv u) (vv u) (mu u))) s (fst (@state_at_chi _ Num_D d1 d2 d3 d4 dr dv d5)) /\
    vcarries (fun u => snd (state_at_chi (chi u) (al u) (s0 u) (r0 u) (rv u) (vv u) (mu u))) s (snd (@state_at_chi _ Num_D d1 d2 d3 d4 dr dv d5)).
  Proof using.
    intros H1 H2 H3 H4 H5 H6 H7 N1 N2 P N3. unfold state_at_chi. cbv zeta.
    pose proof (ad_ufunc0 s chi al d1 d2 H1 H2 N1) as U0. pose proof (ad_ufunc1 s chi al d1 d2 H1 H2 N1) as U1. pose proof (ad_ufunc2 s chi al d1 d2 H1 H2 N1) as U2.
    pose proof (ad_equ_of_orb_uvi s _ _ _ r0 s0 _ _ _ _ _ U0 U1 U2 H4 H3) as Hr.
    apply (ad_lagrange_prop (fun u => lagrange_F (ufunc2 (chi u) (al u)) (r0 u)) (fun u => lagrange_G (ufunc1 (chi u) (al u)) (ufunc2 (chi u) (al u)) (s0 u) (r0 u) (mu u))
      (fun u => lagrange_Ft (ufunc1 (chi u) (al u)) (equ_of_orb_uvi (ufunc0 (chi u) (al u)) (ufunc1 (chi u) (al u)) (ufunc2 (chi u) (al u)) (r0 u) (s0 u)) (r0 u) (mu u))
      (fun u => lagrange_Gt (ufunc2 (chi u) (al u)) (equ_of_orb_uvi (ufunc0 (chi u) (al u)) (ufunc1 (chi u) (al u)) (ufunc2 (chi u) (al u)) (r0 u) (s0 u))) rv vv); try assumption.
    - now apply ad_lagrange_F.
    - now apply ad_lagrange_G.
    - now apply (ad_lagrange_Ft _ (fun u => equ_of_orb_uvi (ufunc0 (chi u) (al u)) (ufunc1 (chi u) (al u)) (ufunc2 (chi u) (al u)) (r0 u) (s0 u))).
    - now apply (ad_lagrange_Gt _ (fun u => equ_of_orb_uvi (ufunc0 (chi u) (al u)) (ufunc1 (chi u) (al u)) (ufunc2 (chi u) (al u)) (r0 u) (s0 u))).
  Qed.
End Kepler.

(** ** Rotations and elements *)
Section Elements.
  Context (s : R).
  Lemma va_mk3 a b c da db dc : carries a s da -> carries b s db -> carries c s dc ->
    vcarries (fun u => mk3 (a u) (b u) (c u)) s (mk3 da db dc).
  Proof using. intros A B C. split; [|split]; cbn [c0 c1 c2]; assumption. Qed.
  Lemma ma_mul A B dA dB : mcarries A s dA -> mcarries B s dB -> mcarries (fun u => mmul (A u) (B u)) s (@mmul _ Num_D dA dB).
  Proof using.
    intros (A0 & A1 & A2) ((B00 & B01 & B02) & (B10 & B11 & B12) & (B20 & B21 & B22)).
    assert (K : forall row drow, vcarries row s drow -> vcarries (fun u => mk3 (vinner (row u) (mcol (@c0) (B u))) (vinner (row u) (mcol (@c1) (B u))) (vinner (row u) (mcol (@c2) (B u)))) s
      (mk3 (@vinner _ Num_D drow (mcol (@c0) dB)) (@vinner _ Num_D drow (mcol (@c1) dB)) (@vinner _ Num_D drow (mcol (@c2) dB)))).
    { intros row drow (X0 & X1 & X2). unfold vinner, mcol, vmap3. apply va_mk3; cbn [c0 c1 c2]; ad. }
    split; [|split]; unfold mmul, vmap3; cbn [c0 c1 c2]; apply K; assumption.
  Qed.
  Lemma ma_vec A x dA dx : mcarries A s dA -> vcarries x s dx -> vcarries (fun u => mvec (A u) (x u)) s (@mvec _ Num_D dA dx).
  Proof using. intros (A0 & A1 & A2) X. split; [|split]; unfold mvec, vmap3; cbn [c0 c1 c2]; (apply va_inner; assumption). Qed.
  Lemma ad_rotmat3dx a da : carries a s da -> mcarries (fun u => rotmat3dx (a u)) s (@rotmat3dx _ Num_D da).
  Proof using. intros H. unfold rotmat3dx. cbv zeta. split; [|split]; cbn [c0 c1 c2]; apply va_mk3; ad. Qed.
  Lemma ad_rotmat3dy a da : carries a s da -> mcarries (fun u => rotmat3dy (a u)) s (@rotmat3dy _ Num_D da).
  Proof using. intros H. unfold rotmat3dy. cbv zeta. split; [|split]; cbn [c0 c1 c2]; apply va_mk3; ad. Qed.
  Lemma ad_rotmat3dz a da : carries a s da -> mcarries (fun u => rotmat3dz (a u)) s (@rotmat3dz _ Num_D da).
  Proof using. intros H. unfold rotmat3dz. cbv zeta. split; [|split]; cbn [c0 c1 c2]; apply va_mk3; ad. Qed.
  Lemma ad_coe2rv p e i O w f mu d1 d2 d3 d4 d5 d6 d7 :
    carries p s d1 -> carries e s d2 -> carries i s d3 -> carries O s d4 -> carries w s d5 -> carries f s d6 -> carries mu s d7 ->
    0 < p s -> 0 < mu s -> 1 + e s * cos (f s) <> 0 ->
    vcarries (fun u => fst (coe2rv (p u) (e u) (i u) (O u) (w u) (f u) (mu u))) s (fst (@coe2rv _ Num_D d1 d2 d3 d4 d5 d6 d7)) /\
    vcarries (fun u => snd (coe2rv (p u) (e u) (i u) (O u) (w u) (f u) (mu u))) s (snd (@coe2rv _ Num_D d1 d2 d3 d4 d5 d6 d7)).
  Proof using.
    intros H1 H2 H3 H4 H5 H6 H7 P Q N. unfold coe2rv. cbv zeta. cbn [fst snd].
    assert (K : mcarries (fun u => mmul (mmul (rotmat3dz (O u)) (rotmat3dx (i u))) (rotmat3dz (w u))) s
      (@mmul _ Num_D (@mmul _ Num_D (@rotmat3dz _ Num_D d4) (@rotmat3dx _ Num_D d3)) (@rotmat3dz _ Num_D d5))).
    { apply (ma_mul (fun u => mmul (rotmat3dz (O u)) (rotmat3dx (i u)))); [|now apply ad_rotmat3dz]. apply ma_mul; [now apply ad_rotmat3dz|now apply ad_rotmat3dx]. }
    split.
    - apply (ma_vec (fun u => mmul (mmul (rotmat3dz (O u)) (rotmat3dx (i u))) (rotmat3dz (w u)))); [exact K|].
      apply (va_scale (fun u => mk3 (n_cos (f u)) (n_sin (f u)) (n_Z 0))); [apply va_mk3; ad|]. ad. exact N.
    - apply (ma_vec (fun u => mmul (mmul (rotmat3dz (O u)) (rotmat3dx (i u))) (rotmat3dz (w u)))); [exact K|].
      apply (va_scale (fun u => mk3 (n_neg (n_sin (f u))) (n_add (e u) (n_cos (f u))) (n_Z 0))); [apply va_mk3; ad|]. ad; rr; [lra|]. now apply Rdiv_lt_0_compat.
  Qed.

  Lemma ad_inclination h dh : vcarries h s dh -> (c0 (h s) <> 0 \/ c1 (h s) <> 0) ->
    carries (fun u => inclination (h u)) s (@inclination _ Num_D dh).
  Proof using.
    intros H N. assert (Z : h s <> vzero) by (intros E; rewrite E in N; cbn in N; tauto).
    assert (P : 0 < vector_norm (h s)) by now apply norm_gt.
    unfold inclination. apply (a_arccos (fun u => n_div (c2 (h u)) (vector_norm (h u)))).
    - apply a_div; [apply H|now apply va_norm|lra].
    - cbn [n_div Num_R]. rewrite vector_norm_vnorm in *. set (n := vnorm (h s)) in *.
      assert (E : n * n = c0 (h s) * c0 (h s) + c1 (h s) * c1 (h s) + c2 (h s) * c2 (h s)) by (unfold n; rewrite vnorm_sq; reflexivity).
      assert (G : 0 < c0 (h s) * c0 (h s) + c1 (h s) * c1 (h s)) by (destruct N; nra).
      split; apply (Rmult_lt_reg_r n); try exact P; replace (c2 (h s) / n * n) with (c2 (h s)) by (field; lra); nra.
  Qed.
  Lemma ad_wrap (y x : R -> R) dy dx : carries y s dy -> carries x s dx -> y s <> 0 \/ x s < 0 ->
    carries (fun u => where_ (n_lt (n_arctan2 (y u) (x u)) (n_Z 0)) (n_add (n_mul (n_Z 2) n_pi) (n_arctan2 (y u) (x u))) (n_arctan2 (y u) (x u))) s
      (let a := @n_arctan2 _ Num_D dy dx in where_ (@n_lt _ Num_D a (@n_Z _ Num_D 0)) (@n_add _ Num_D (@n_mul _ Num_D (@n_Z _ Num_D 2) (@n_pi _ Num_D)) a) a).
  Proof using.
    intros Y X N. cbv zeta. destruct (Req_dec (y s) 0) as [E|E].
    - destruct N as [N|N]; [contradiction|].
      (* on the negative axis: the wrapped angle is [PI + atan (y / x)] around the point *)
      pose proof (carries_val _ _ _ Y) as Vy. pose proof (carries_val _ _ _ X) as Vx.
      assert (L : locally s (fun u => PI + atan (y u / x u) = where_ (n_lt (n_arctan2 (y u) (x u)) (n_Z 0)) (n_add (n_mul (n_Z 2) n_pi) (n_arctan2 (y u) (x u))) (n_arctan2 (y u) (x u)))).
      { apply (filter_imp (fun u => x u < 0)); [|exact (ev_lt x s _ 0 (proj2 X) N)]. intros u Hu. unfold where_. cbn.
        destruct (Rlt_dec (y u) 0) as [Q|Q].
        - pose proof (atan2_neg (y u) (x u) Q) as B. assert (T : ltb (atan2 (y u) (x u)) 0 = true) by (apply ltb_true; lra). rewrite T.
          unfold atan2. destruct (Rlt_dec 0 (x u)); [lra|]. destruct (Rlt_dec (x u) 0); [|lra]. destruct (Rle_dec 0 (y u)); [lra|]. ring.
        - pose proof (atan2_nonneg (y u) (x u) ltac:(lra)) as B. assert (T : ltb (atan2 (y u) (x u)) 0 = false) by (apply ltb_false; lra). rewrite T.
          unfold atan2. destruct (Rlt_dec 0 (x u)); [lra|]. destruct (Rlt_dec (x u) 0); [|lra]. destruct (Rle_dec 0 (y u)); [|lra]. ring. }
      apply (a_loc _ _ _ _ L). unfold where_. change (@n_lt _ Num_D (@n_arctan2 _ Num_D dy dx) (@n_Z _ Num_D 0)) with (ltb (atan2 (val dy) (val dx)) 0).
      rewrite Vy, Vx. pose proof (atan2_nonneg (y s) (x s) ltac:(lra)) as B. assert (T : ltb (atan2 (y s) (x s)) 0 = false) by (apply ltb_false; lra). rewrite T.
      split.
      + cbn. rewrite Vy, Vx. unfold atan2. destruct (Rlt_dec 0 (x s)); [lra|]. destruct (Rlt_dec (x s) 0); [|lra]. destruct (Rle_dec 0 (y s)); [|lra]. ring.
      + cbn. rewrite Vy, Vx. eapply der_eq; [apply der_plus; [apply der_const|apply (quot_der y x s dy dx Y X); lra]|]. rewrite E. field. lra.
    - apply (a_if (fun u => n_arctan2 (y u) (x u)) (fun _ => n_Z 0)); [apply a_arctan2; auto|apply a_Z| |intros _|intros _].
      + cbn. destruct (Rlt_dec (y s) 0) as [Q|Q]; [pose proof (atan2_neg (y s) (x s) Q); lra|].
        intros Z. assert (P : 0 < y s) by lra. rewrite atan2_up in Z by exact P. pose proof (atan_bounds (x s / y s)). lra.
      + apply (a_add _ (fun u => n_arctan2 (y u) (x u))); [ad|apply a_arctan2; auto].
      + apply a_arctan2; auto.
  Qed.
  Lemma ad_right_ascension n dn : vcarries n s dn -> c1 (n s) <> 0 \/ c0 (n s) < 0 ->
    carries (fun u => right_ascension (n u)) s (@right_ascension _ Num_D dn).
  Proof using. intros (H0 & H1 & _) N. apply (ad_wrap (fun u => c1 (n u)) (fun u => c0 (n u))); assumption. Qed.
  Lemma ad_node_vec h dh : vcarries h s dh -> vcarries (fun u => node_vec (h u)) s (@node_vec _ Num_D dh).
  Proof using. intros H. unfold node_vec. apply (va_cross (fun _ => mk3 (n_Z 0) (n_Z 0) (n_Z 1)) h); [apply va_mk3; ad|exact H]. Qed.
  Lemma ad_angle_between a b da db : vcarries a s da -> vcarries b s db -> vcross (a s) (b s) <> vzero ->
    carries (fun u => let t := n_arctan2 (vector_norm (vcross (a u) (b u))) (vinner (a u) (b u)) in where_ (n_lt t (n_Z 0)) (n_add (n_mul (n_Z 2) n_pi) t) t) s
      (let t := @n_arctan2 _ Num_D (@vector_norm _ Num_D (@vcross _ Num_D da db)) (@vinner _ Num_D da db) in
       where_ (@n_lt _ Num_D t (@n_Z _ Num_D 0)) (@n_add _ Num_D (@n_mul _ Num_D (@n_Z _ Num_D 2) (@n_pi _ Num_D)) t) t).
  Proof using.
    intros A B N. apply (ad_wrap (fun u => vector_norm (vcross (a u) (b u))) (fun u => vinner (a u) (b u))).
    - apply (va_norm (fun u => vcross (a u) (b u))); [now apply va_cross|exact N].
    - now apply va_inner.
    - left. now apply norm_neq.
  Qed.
  Lemma ad_true_anomaly r e dr de : vcarries r s dr -> vcarries e s de -> vcross (e s) (r s) <> vzero ->
    carries (fun u => true_anomaly (r u) (e u)) s (@true_anomaly _ Num_D dr de).
  Proof using. intros A B N. unfold true_anomaly. now apply (ad_angle_between e r). Qed.
  Lemma ad_argument_of_periapsis n e dn de : vcarries n s dn -> vcarries e s de -> vcross (n s) (e s) <> vzero ->
    carries (fun u => argument_of_periapsis (n u) (e u)) s (@argument_of_periapsis _ Num_D dn de).
  Proof using. intros A B N. unfold argument_of_periapsis. now apply (ad_angle_between n e). Qed.
End Elements.

Section Coe.
  Context (s : R).
  Lemma ad_rv2coe (r v : R -> vec) mu dr dv dm : vcarries r s dr -> vcarries v s dv -> carries mu s dm ->
    let h := cross (r s) (v s) in let e := eccentricity_vector (r s) (v s) (mu s) in
    0 < mu s -> c0 h <> 0 \/ c1 h <> 0 -> c0 h <> 0 \/ 0 < c1 h -> cross (mk3 0 0 1) h <> vzero ->
    cross (cross (mk3 0 0 1) h) e <> vzero -> cross e (r s) <> vzero ->
    let k := fun u => rv2coe (r u) (v u) (mu u) in let d := @rv2coe _ Num_D dr dv dm in
    carries (fun u => coe_p (k u)) s (coe_p d) /\ carries (fun u => coe_e (k u)) s (coe_e d) /\
    carries (fun u => coe_incl (k u)) s (coe_incl d) /\ carries (fun u => coe_raan (k u)) s (coe_raan d) /\
    carries (fun u => coe_argp (k u)) s (coe_argp d) /\ carries (fun u => coe_f (k u)) s (coe_f d).
  Proof using.
    intros R V M h e Pm N1 N2 Nn N3 N4 k d. unfold k, d, rv2coe. cbn [coe_p coe_e coe_incl coe_raan coe_argp coe_f].
    pose proof (ad_angular_momentum s r v dr dv R V) as H.
    assert (Nr : r s <> vzero). { intros E. unfold h in Nn. rewrite E in Nn. apply Nn. unfold cross, vzero. cbn. apply mk3_eq; ring. }
    assert (Nh : angular_momentum (r s) (v s) <> vzero). { intros E. apply Nn. unfold h. change (cross (r s) (v s)) with (angular_momentum (r s) (v s)). rewrite E. unfold cross, vzero. cbn. apply mk3_eq; ring. }
    pose proof (ad_eccentricity_vector s r v mu dr dv dm R V M Nr ltac:(lra)) as Ee.
    assert (Ne : eccentricity_vector (r s) (v s) (mu s) <> vzero). { intros Z. apply N4. unfold e. rewrite Z. unfold cross, vzero. cbn. apply mk3_eq; ring. }
    pose proof (ad_node_vec s (fun u => angular_momentum (r u) (v u)) _ H) as Hn.
    split; [|split; [|split; [|split; [|split]]]].
    - apply (ad_semiparameter s (fun u => vector_norm (angular_momentum (r u) (v u)))); [|exact M|lra]. now apply (va_norm (fun u => angular_momentum (r u) (v u))).
    - now apply (va_norm (fun u => eccentricity_vector (r u) (v u) (mu u))).
    - apply (ad_inclination s (fun u => angular_momentum (r u) (v u))); [exact H|exact N1].
    - apply (ad_right_ascension s (fun u => node_vec (angular_momentum (r u) (v u)))); [exact Hn|]. cbn. unfold h in N2. cbn in N2. lra.
    - apply (ad_argument_of_periapsis s (fun u => node_vec (angular_momentum (r u) (v u))) (fun u => eccentricity_vector (r u) (v u) (mu u))); [exact Hn|exact Ee|exact N3].
    - apply (ad_true_anomaly s r (fun u => eccentricity_vector (r u) (v u) (mu u))); [exact R|exact Ee|exact N4].
  Qed.
End Coe.

(** ** Accelerations *)
From Verif Require Import Gravity.
From Coq Require Import String.
Import ListNotations.
Section Forms.
  Local Open Scope num_scope.
  Context {T : Type} {N : Num T}.
  Definition pm_form (a b c r mu : T) : V3 T :=
    let m := mu / r ** 3 in mk3 ((- m) * a) ((- m) * b) ((- m) * c).
  Definition j2_form (a b c r mu J R_eq : T) : V3 T :=
    let q := (c / r) ** 2 in let k := n_dec (-3) 2 * mu * J * R_eq ** 2 / r ** 5 in
    mk3 (k * a * (#1 - #5 * q)) (k * b * (#1 - #5 * q)) (k * c * (#3 - #5 * q)).
  Definition j3_form (a b c r mu J R_eq : T) : V3 T :=
    let q := c ** 3 / r ** 2 in let k := n_dec (-5) 2 * mu * J * R_eq ** 3 / r ** 7 in
    mk3 (k * a * (#3 * c - #7 * q)) (k * b * (#3 * c - #7 * q)) (k * (#6 * c ** 2 - #7 * q * c - n_dec 3 5 * r ** 2)).
  Definition j4_form (a b c r mu J R_eq : T) : V3 T :=
    let q := (c / r) ** 2 in let k := n_dec 15 8 * mu * J * R_eq ** 4 / r ** 7 in
    mk3 (k * a * (#1 - #14 * q + #21 * q ** 2)) (k * b * (#1 - #14 * q + #21 * q ** 2)) (k * c * (#5 - #70 * q / #3 + #21 * q ** 2)).
  Context (t a b c : T) (l : list T) (args : dict (T := T)) (mu J R_eq : T).
  Hypothesis Hm : lookup "mu" args = Ok mu.
  Hypothesis Hr : lookup "R_eq" args = Ok R_eq.
  Lemma pm_is : point_mass_grav t (a :: b :: c :: l) args = Ok (pm_form a b c (norm_first3 (a :: b :: c :: l)) mu).
  Proof using Hm. unfold point_mass_grav. now rewrite Hm. Qed.
  Lemma j2_is : lookup "J2" args = Ok J -> j2_acc t (a :: b :: c :: l) args = Ok (j2_form a b c (norm_first3 (a :: b :: c :: l)) mu J R_eq).
  Proof using Hm Hr. intros H. unfold j2_acc. now rewrite Hm, Hr, H. Qed.
  Lemma j3_is : lookup "J3" args = Ok J -> j3_acc t (a :: b :: c :: l) args = Ok (j3_form a b c (norm_first3 (a :: b :: c :: l)) mu J R_eq).
  Proof using Hm Hr. intros H. unfold j3_acc. now rewrite Hm, Hr, H. Qed.
  Lemma j4_is : lookup "J4" args = Ok J -> j4_acc t (a :: b :: c :: l) args = Ok (j4_form a b c (norm_first3 (a :: b :: c :: l)) mu J R_eq).
  Proof using Hm Hr. intros H. unfold j4_acc. now rewrite Hm, Hr, H. Qed.
End Forms.
Section Grav.
  Context (s : R).
  Context (x0 x1 x2 : R -> R) (d0 d1 d2 : dual) (rest : R -> list R) (drest : list dual).
  Hypothesis X0 : carries x0 s d0.
  Hypothesis X1 : carries x1 s d1.
  Hypothesis X2 : carries x2 s d2.
  Hypothesis NZ : mk3 (x0 s) (x1 s) (x2 s) <> vzero.
  Let x u := x0 u :: x1 u :: x2 u :: rest u.
  Let dx := d0 :: d1 :: d2 :: drest.
  Lemma ad_norm3 : carries (fun u => norm_first3 (x u)) s (@norm_first3 _ Num_D dx).
  Proof using X0 X1 X2 NZ.
    unfold norm_first3, x, dx. cbn [firstn sumsq fold_left]. apply a_sqrt; [ad|]. rr. apply (dot_pos _ NZ).
  Qed.
  Lemma norm3_pos : 0 < norm_first3 (x s).
  Proof using NZ. unfold norm_first3, x. cbn [firstn sumsq fold_left]. apply sqrt_lt_R0. apply (dot_pos _ NZ). Qed.
  Lemma pow_pos (p : positive) : npow (norm_first3 (x s)) p <> 0.
  Proof using NZ.
    pose proof norm3_pos as P. set (r := norm_first3 (x s)) in *. clearbody r.
    assert (K : forall p acc y, 0 < y -> match acc with Some z => 0 < z | None => True end -> 0 < npow_aux acc y p).
    { clear. induction p as [p IH|p IH|]; intros acc y Hy Ha; cbn [npow_aux].
      - apply IH; [cbn; now apply Rmult_lt_0_compat|]. destruct acc; cbn; [now apply Rmult_lt_0_compat|exact Hy].
      - apply IH; [cbn; now apply Rmult_lt_0_compat|exact Ha].
      - destruct acc; cbn; [now apply Rmult_lt_0_compat|exact Hy]. }
    apply Rgt_not_eq. now apply K.
  Qed.
  Context (t : R -> R) (dt : dual) (args : R -> dict (T := R)) (dargs : dict (T := dual)) (mu J Q : R -> R) (dm dJ dQ : dual).
  Hypothesis Hm : agrees s "mu" args dargs mu dm.
  Hypothesis HQ : agrees s "R_eq" args dargs Q dQ.
  Lemma ad_point_mass :
    exists acc dacc, (forall u, point_mass_grav (t u) (x u) (args u) = Ok (acc u)) /\ @point_mass_grav _ Num_D dt dx dargs = Ok dacc /\ vcarries acc s dacc.
  Proof using X0 X1 X2 NZ Hm.
    destruct Hm as (L & D & C). pose proof ad_norm3 as Hn. pose proof norm3_pos as P.
    exists (fun u => pm_form (x0 u) (x1 u) (x2 u) (norm_first3 (x u)) (mu u)), (@pm_form _ Num_D d0 d1 d2 (@norm_first3 _ Num_D dx) dm). split; [|split].
    - intros u. now apply pm_is.
    - now apply pm_is.
    - unfold pm_form. cbv zeta. split; [|split]; cbn [c0 c1 c2]; ad; apply pow_pos.
  Qed.
  Ltac grav := ad; first [apply pow_pos | apply Rgt_not_eq, norm3_pos | rr; lra].
  Lemma ad_j2 : agrees s "J2" args dargs J dJ ->
    exists acc dacc, (forall u, j2_acc (t u) (x u) (args u) = Ok (acc u)) /\ @j2_acc _ Num_D dt dx dargs = Ok dacc /\ vcarries acc s dacc.
  Proof using X0 X1 X2 NZ Hm HQ.
    intros (L & D & C). destruct Hm as (Lm & Dm & Cm), HQ as (LQ & DQ & CQ). pose proof ad_norm3 as Hn.
    exists (fun u => j2_form (x0 u) (x1 u) (x2 u) (norm_first3 (x u)) (mu u) (J u) (Q u)), (@j2_form _ Num_D d0 d1 d2 (@norm_first3 _ Num_D dx) dm dJ dQ). split; [|split].
    - intros u. now apply j2_is.
    - now apply j2_is.
    - unfold j2_form. cbv zeta. split; [|split]; cbn [c0 c1 c2]; grav.
  Qed.
  Lemma ad_j3 : agrees s "J3" args dargs J dJ ->
    exists acc dacc, (forall u, j3_acc (t u) (x u) (args u) = Ok (acc u)) /\ @j3_acc _ Num_D dt dx dargs = Ok dacc /\ vcarries acc s dacc.
  Proof using X0 X1 X2 NZ Hm HQ.
    intros (L & D & C). destruct Hm as (Lm & Dm & Cm), HQ as (LQ & DQ & CQ). pose proof ad_norm3 as Hn.
    exists (fun u => j3_form (x0 u) (x1 u) (x2 u) (norm_first3 (x u)) (mu u) (J u) (Q u)), (@j3_form _ Num_D d0 d1 d2 (@norm_first3 _ Num_D dx) dm dJ dQ). split; [|split].
    - intros u. now apply j3_is.
    - now apply j3_is.
    - unfold j3_form. cbv zeta. split; [|split]; cbn [c0 c1 c2]; grav.
  Qed.
  Lemma ad_j4 : agrees s "J4" args dargs J dJ ->
    exists acc dacc, (forall u, j4_acc (t u) (x u) (args u) = Ok (acc u)) /\ @j4_acc _ Num_D dt dx dargs = Ok dacc /\ vcarries acc s dacc.
  Proof using X0 X1 X2 NZ Hm HQ.
    intros (L & D & C). destruct Hm as (Lm & Dm & Cm), HQ as (LQ & DQ & CQ). pose proof ad_norm3 as Hn.
    exists (fun u => j4_form (x0 u) (x1 u) (x2 u) (norm_first3 (x u)) (mu u) (J u) (Q u)), (@j4_form _ Num_D d0 d1 d2 (@norm_first3 _ Num_D dx) dm dJ dQ). split; [|split].
    - intros u. now apply j4_is.
    - now apply j4_is.
    - unfold j4_form. cbv zeta. split; [|split]; cbn [c0 c1 c2]; grav.
  Qed.
End Grav.
