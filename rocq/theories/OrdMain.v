(** * OrdMain: the closed formulas of the library keep the order of their arguments. *)
From Coq Require Import ZArith Reals Bool List String Lia Lra.
From Flocq Require Import Core IEEE754.BinarySingleNaN.
From Verif Require Import Num OrbIntegrals KepEqu PathCheck Gravity SpecOrd OrdFloat.
Import ListNotations.
Local Open Scope R_scope.

Section Main.
  Context {prec emax : Z} (Hp : FLX.Prec_gt_0 prec) (Hm : Prec_lt_emax prec emax).
  Notation bf := (binary_float prec emax).
  Record nearest (N : Num bf) : Prop := {
    o_add : forall a b, @n_add _ N a b = Bplus mode_NE a b;
    o_sub : forall a b, @n_sub _ N a b = Bminus mode_NE a b;
    o_mul : forall a b, @n_mul _ N a b = Bmult mode_NE a b;
    o_div : forall a b, @n_div _ N a b = Bdiv mode_NE a b;
    o_sqrt : forall a, @n_sqrt _ N a = Bsqrt mode_NE a;
    o_neg : forall a, @n_neg _ N a = Bopp a;
    o_lt : forall a b, @n_lt _ N a b = Bltb a b;
    o_max : forall a b, @n_max _ N a b = if is_nan a then a else if is_nan b then b else if Bltb a b then b else a;
    o_floor : forall a, @n_floor _ N a = Bnearbyint mode_DN a;
    o_one : is_finite (@n_Z _ N 1) = true /\ B2R (@n_Z _ N 1) = 1;
    o_two : positive (@n_Z _ N 2);
    o_four : positive (@n_Z _ N 4);
    o_half : positive (@n_dec _ N 1 2);
    o_twopi : positive (Bmult mode_NE (@n_Z _ N 2) (@n_pi _ N));
    o_pi2 : positive (Bmult mode_NE (@n_pi _ N) (@n_pi _ N)) }.
  Context (N : Num bf) (I : nearest N).
  Notation "x <=. y" := (leq x y) (at level 70).
  Notation one := (@n_Z _ N 1).
  Local Notation mul := (Bmult mode_NE). Local Notation div := (Bdiv mode_NE). Local Notation add := (Bplus mode_NE). Local Notation sub := (Bminus mode_NE).
  Let mul_leq := mul_leq prec emax Hp Hm. Let div_leq := div_leq prec emax Hp Hm. Let add_leq := add_leq prec emax Hp Hm. Let sub_leq := sub_leq prec emax Hp Hm.

  Ltac ops := unfold npow; cbn [npow_aux mul_opt]; rewrite ?(o_add N I), ?(o_sub N I), ?(o_mul N I), ?(o_div N I), ?(o_sqrt N I), ?(o_neg N I), ?(o_lt N I), ?(o_floor N I).

  Lemma one_fin : is_finite one = true. Proof using I. apply (o_one N I). Qed.
  Lemma one_R : B2R one = 1. Proof using I. apply (o_one N I). Qed.
  Lemma one_pos : positive one. Proof using I. split; [|exact one_fin]. apply less_val. repeat split; [apply fin_num, one_fin|]. rewrite (fin_val _ _ _ one_fin), one_R. cbn. lra. Qed.
  Lemma one_up : up prec emax one. Proof using I. apply up_pos, one_pos. Qed.

  (** denominators *)
  Lemma plus_up (e : bf) : nonneg e -> up _ _ (add one e) /\ one <=. add one e.
  Proof using I Hp Hm.
    intros E. pose proof (nonneg_R _ _ _ E) as R. destruct E as [_ F].
    split; [apply add_up|apply add_ge]; try assumption; try exact one_fin; try exact one_up; rewrite one_R; lra.
  Qed.
  Lemma minus_up (e : bf) : is_finite e = true -> e <=. one -> up _ _ (sub one e).
  Proof using I Hp Hm.
    intros F L. apply sub_up_le; try assumption; try exact one_fin; try exact one_up. rewrite one_R. apply up_fin_leq in L; try assumption; [|exact one_fin]. now rewrite one_R in L.
  Qed.
  Lemma below_one (e : bf) : is_finite e = true -> e <=. one -> B2R e <= 1.
  Proof using I. intros F L. apply up_fin_leq in L; try assumption; [|exact one_fin]. now rewrite one_R in L. Qed.
  Lemma sqr_one (e : bf) : nonneg e -> e <=. one -> nonneg (mul e e) /\ mul e e <=. e /\ mul e e <=. one.
  Proof using I Hp Hm.
    intros E L. pose proof (nonneg_R _ _ _ E) as R. pose proof (below_one e (proj2 E) L) as B. destruct E as [_ F].
    assert (A : mul e e <=. e) by (apply mul_le; try assumption; nra).
    assert (Z : zero <=. mul e e) by (apply mul_ge; try assumption; try reflexivity; cbn; nra).
    repeat split; try assumption; [|eapply leq_trans; eassumption]. eapply fin_between; [| |exact Z|exact A]; [reflexivity|exact F].
  Qed.
  Lemma pos_fin (x : bf) : positive x -> is_finite x = true. Proof using. now intros [_ F]. Qed.

  Lemma apsides (p e : bf) : positive p -> nonneg e -> e <=. one ->
    @radius_periapsis _ N p e <=. p /\ p <=. @a_from_pe _ N p e /\ @a_from_pe _ N p e <=. @radius_apoapsis _ N p e.
  Proof using I Hp Hm.
    intros P E L. unfold radius_periapsis, a_from_pe, radius_apoapsis. ops.
    destruct (plus_up e E) as [U1 L1]. destruct (sqr_one e E L) as (Q & Qe & Q1).
    pose proof (minus_up e (proj2 E) L) as U2. pose proof (minus_up _ (proj2 Q) Q1) as U3. pose proof (up_pos _ _ p P) as Up.
    destruct (div_one _ _ Hp Hm p one Up (pos_fin p P) one_fin one_R) as [D1 D2].
    assert (N1 := div_number _ _ Hp Hm p _ P U1). assert (N2 := div_number _ _ Hp Hm p _ P U2). assert (N3 := div_number _ _ Hp Hm p _ P U3).
    assert (N0 := div_number _ _ Hp Hm p _ P one_up). assert (Pp : p <=. p) by (apply leq_refl, Up). repeat split.
    - eapply leq_trans; [|exact D2]. apply div_leq; try assumption. exact one_up.
    - eapply leq_trans; [exact D1|]. apply div_leq; try assumption; [exact one_up|]. apply sub_le; try exact one_fin; [apply Q|]. pose proof (nonneg_R _ _ _ Q). lra.
    - apply div_leq; try assumption. apply sub_leq; try apply U2; try apply U3; [apply leq_refl, one_up|exact Qe].
  Qed.
  Lemma orbit_range (p e f : bf) : positive p -> nonneg e -> Bopp one <=. @n_cos _ N f -> @n_cos _ N f <=. one ->
    (e <=. one -> @radius_periapsis _ N p e <=. @equ_of_orbit _ N p e f /\ @equ_of_orbit _ N p e f <=. @radius_apoapsis _ N p e) /\
    (less zero (@equ_of_orbit _ N p e f) -> @radius_periapsis _ N p e <=. @equ_of_orbit _ N p e f).
  Proof using I Hp Hm.
    intros P E C1 C2. unfold radius_periapsis, radius_apoapsis, equ_of_orbit. ops. set (c := n_cos f) in *.
    assert (Fo : is_finite (Bopp one) = true) by (rewrite is_finite_Bopp; exact one_fin).
    assert (Fc : is_finite c = true) by (eapply fin_between; [exact Fo|exact one_fin|exact C1|exact C2]).
    assert (C : -1 <= B2R c <= 1). { apply up_fin_leq in C1, C2; try assumption; try exact one_fin. rewrite B2R_Bopp, one_R in C1. rewrite one_R in C2. lra. }
    pose proof (nonneg_R _ _ _ E) as R. pose proof (proj2 E) as Fe. destruct (plus_up e E) as [U1 L1]. pose proof (up_pos _ _ p P) as Up.
    assert (Q1 : mul e c <=. e) by (apply mul_le; try assumption; nra).
    assert (Q2 : Bopp e <=. mul e c) by (apply mul_ge; try assumption; [now rewrite is_finite_Bopp|rewrite B2R_Bopp; nra]).
    assert (Fq : is_finite (mul e c) = true) by (eapply fin_between; [| |exact Q2|exact Q1]; [now rewrite is_finite_Bopp|exact Fe]).
    destruct (add_val _ _ Hp Hm one (mul e c) one_fin Fq) as [N1 _].
    assert (A : add one (mul e c) <=. add one e) by (apply add_leq; try assumption; [apply leq_refl, one_up|apply U1]).
    assert (Pp : p <=. p) by (apply leq_refl, Up).
    assert (S : up _ _ (add one (mul e c)) -> div p (add one e) <=. div p (add one (mul e c))).
    { intros U. apply div_leq; try assumption; apply div_number; assumption. }
    split.
    - intros L. pose proof (below_one e Fe L) as B. assert (Q : - B2R e <= B2R (mul e c)). { rewrite <- B2R_Bopp. apply up_fin_leq; [now rewrite is_finite_Bopp|assumption|exact Q2]. }
      assert (U : up _ _ (add one (mul e c))) by (apply add_up; try assumption; try exact one_fin; try exact one_up; rewrite one_R; lra).
      split; [exact (S U)|]. pose proof (minus_up e Fe L) as U2. apply div_leq; try assumption; try (apply div_number; assumption).
      apply leq_val. repeat split; [apply U2|exact N1|]. destruct (sub_val _ _ Hp Hm one e one_fin Fe) as [_ V]. destruct (add_val _ _ Hp Hm one (mul e c) one_fin Fq) as [_ V'].
      rewrite V, V'. apply clamp_le, rnd_le; try assumption. lra.
    - intros Z. destruct (Bsign (add one (mul e c))) eqn:Sg; [|apply S; now split]. exfalso.
      pose proof (pos_up _ _ _ Z) as [N2 S2]. pose proof (div_neg _ _ Hp Hm p _ Up N1 Sg N2) as D. congruence.
  Qed.
  Lemma nonneg_leq (x y : bf) : nonneg x -> nonneg y -> x <=. y -> mul x x <=. mul y y.
  Proof using Hp Hm.
    intros A B L. pose proof (nonneg_R _ _ _ A). pose proof (nonneg_R _ _ _ B). destruct A as [_ A], B as [_ B].
    apply up_fin_leq in L; try assumption. apply leq_val. repeat split; try (apply sqr_number; try assumption; now apply fin_num).
    rewrite (proj2 (mul_val _ _ Hp Hm x x A A)), (proj2 (mul_val _ _ Hp Hm y y B B)). apply clamp_le, rnd_le; try assumption. nra.
  Qed.
  Lemma periapsis_mono (p p' e e' : bf) : positive p -> positive p' -> nonneg e -> nonneg e' -> p <=. p' -> e' <=. e ->
    @radius_periapsis _ N p e <=. @radius_periapsis _ N p' e'.
  Proof using I Hp Hm.
    intros P P' E E' Lp Le. unfold radius_periapsis. ops. destruct (plus_up e E) as [U _]. destruct (plus_up e' E') as [U' _].
    apply div_leq; try assumption; try (now apply up_pos); try (apply div_number; assumption). apply add_leq; try assumption; [apply leq_refl, one_up|apply U'|apply U].
  Qed.
  Lemma apoapsis_mono (p p' e e' : bf) : positive p -> positive p' -> nonneg e -> nonneg e' -> p <=. p' -> e <=. e' -> e' <=. one ->
    @radius_apoapsis _ N p e <=. @radius_apoapsis _ N p' e' /\ @a_from_pe _ N p e <=. @a_from_pe _ N p' e'.
  Proof using I Hp Hm.
    intros P P' E E' Lp Le L1. assert (L0 : e <=. one) by (eapply leq_trans; eassumption). unfold radius_apoapsis, a_from_pe. ops.
    destruct (sqr_one e E L0) as (Q & _ & Q1). destruct (sqr_one e' E' L1) as (Q' & _ & Q1').
    pose proof (minus_up e (proj2 E) L0) as U. pose proof (minus_up e' (proj2 E') L1) as U'. pose proof (minus_up _ (proj2 Q) Q1) as V. pose proof (minus_up _ (proj2 Q') Q1') as V'.
    split; (apply div_leq; try assumption; try (now apply up_pos); try (apply div_number; assumption); apply sub_leq; [apply leq_refl, one_up| | |]); try assumption; try apply U; try apply U'; try apply V; try apply V'.
    now apply nonneg_leq.
  Qed.
  Lemma semipara_mono (a a' e e' : bf) : nonneg a -> nonneg a' -> nonneg e -> nonneg e' -> a <=. a' -> e' <=. e -> e <=. one ->
    @semipara_from_ae _ N a e <=. @semipara_from_ae _ N a' e' /\ @semipara_from_ae _ N a e <=. a.
  Proof using I Hp Hm.
    intros A A' E E' La Le L1. assert (L0 : e' <=. one) by (eapply leq_trans; eassumption). unfold semipara_from_ae. ops.
    destruct (sqr_one e E L1) as (Q & _ & Q1). destruct (sqr_one e' E' L0) as (Q' & _ & Q1'). pose proof (minus_up _ (proj2 Q) Q1) as V. pose proof (minus_up _ (proj2 Q') Q1') as V'.
    pose proof (nonneg_R _ _ _ Q) as Rq. pose proof (nonneg_R _ _ _ Q') as Rq'.
    assert (B : sub one (mul e e) <=. one) by (apply sub_le; try exact one_fin; [apply Q|lra]).
    assert (B' : sub one (mul e' e') <=. one) by (apply sub_le; try exact one_fin; [apply Q'|lra]).
    assert (F : is_finite (sub one (mul e e)) = true) by (eapply fin_between; [| |apply up_le0; exact V|exact B]; [reflexivity|exact one_fin]).
    assert (F' : is_finite (sub one (mul e' e')) = true) by (eapply fin_between; [| |apply up_le0; exact V'|exact B']; [reflexivity|exact one_fin]).
    assert (G : sub one (mul e e) <=. sub one (mul e' e')) by (apply sub_leq; try apply V; try apply V'; [apply leq_refl, one_up|now apply nonneg_leq]).
    apply up_fin_leq in B, G; try assumption; try exact one_fin. rewrite one_R in B. pose proof (up_R _ _ _ V). pose proof (up_R _ _ _ V').
    pose proof (nonneg_R _ _ _ A) as Ra. pose proof (nonneg_R _ _ _ A') as Ra'. destruct A as [_ Fa], A' as [_ Fa']. apply up_fin_leq in La; try assumption. split.
    - apply leq_val. destruct (mul_val _ _ Hp Hm a _ Fa F) as [N1 V1]. destruct (mul_val _ _ Hp Hm a' _ Fa' F') as [N2 V2]. repeat split; try assumption. rewrite V1, V2.
      apply clamp_le, rnd_le; try assumption. apply Rmult_le_compat; assumption.
    - apply mul_le; try assumption. nra.
  Qed.

  (** periods *)
  Lemma third (x x' y y' : bf) : up _ _ x -> up _ _ x' -> positive y -> positive y' -> x <=. x' -> y' <=. y -> up _ _ (div x y) /\ div x y <=. div x' y'.
  Proof using Hp Hm.
    intros U U' P P' L M. assert (A := div_number' _ _ Hp Hm x y U P). assert (A' := div_number' _ _ Hp Hm x' y' U' P'). pose proof (up_pos _ _ y P). pose proof (up_pos _ _ y' P').
    split; [now apply div_up|now apply div_leq].
  Qed.
  Lemma fourth (x x' y y' : bf) : positive x -> positive x' -> up _ _ y -> up _ _ y' -> x <=. x' -> y' <=. y -> up _ _ (div x y) /\ div x y <=. div x' y'.
  Proof using Hp Hm.
    intros P P' U U' L M. assert (A := div_number _ _ Hp Hm x y P U). assert (A' := div_number _ _ Hp Hm x' y' P' U'). pose proof (up_pos _ _ x P). pose proof (up_pos _ _ x' P').
    split; [now apply div_up|now apply div_leq].
  Qed.
  Lemma period_mono (a a' mu mu' : bf) : positive a -> positive a' -> positive mu -> positive mu' -> a <=. a' -> mu' <=. mu ->
    @orb_period _ N a mu <=. @orb_period _ N a' mu'.
  Proof using I Hp Hm.
    intros A A' M M' La Lm. unfold orb_period. ops. pose proof (up_pos _ _ a A) as U. pose proof (up_pos _ _ a' A') as U'.
    pose proof (cube_up _ _ Hp Hm a U) as C. pose proof (cube_up _ _ Hp Hm a' U') as C'. pose proof (cube_leq _ _ Hp Hm a a' U U' La) as L.
    destruct (third _ _ mu mu' C C' M M' L Lm) as [D E]. destruct (third _ _ mu' mu' C' C' M' M' ltac:(apply leq_refl, C') ltac:(apply leq_refl, up_pos, M')) as [D' _].
    pose proof (sqrt_leq _ _ Hp Hm _ _ D D' E) as S. pose proof (sqrt_up _ _ Hp Hm _ D) as V. pose proof (sqrt_up _ _ Hp Hm _ D') as V'. pose proof (o_twopi N I) as T.
    apply mul_leq; try assumption; try (now apply up_pos); try (now apply mul_number'). apply leq_refl, up_pos, T.
  Qed.
  Lemma motion_mono (P P' : bf) : less zero P -> P <=. P' -> @mean_motion _ N P' <=. @mean_motion _ N P.
  Proof using I Hp Hm.
    intros A L. unfold mean_motion. ops. pose proof (o_twopi N I) as T. pose proof (pos_up _ _ _ A). pose proof (pos_up _ _ _ (less_leq_trans _ _ _ _ _ A L)).
    apply fourth; try assumption. apply leq_refl, up_pos, T.
  Qed.
  Lemma axis_mono (P P' mu mu' : bf) : increasing (@n_cbrt _ N) -> positive P -> positive P' -> positive mu -> positive mu' -> P <=. P' -> mu <=. mu' ->
    @a_from_period _ N P mu <=. @a_from_period _ N P' mu'.
  Proof using I Hp Hm.
    intros C A A' M M' L Lm. unfold a_from_period. ops. apply C. pose proof (up_pos _ _ P A) as U. pose proof (up_pos _ _ P' A') as U'.
    pose proof (sqr_up _ _ Hp Hm P (proj1 U)) as S. pose proof (sqr_up _ _ Hp Hm P' (proj1 U')) as S'. pose proof (sqr_leq _ _ Hp Hm _ _ U U' L) as Ls.
    pose proof (mul_number _ _ Hp Hm _ mu S M) as N1. pose proof (mul_number _ _ Hp Hm _ mu' S' M') as N2.
    pose proof (mul_leq _ _ _ _ S (up_pos _ _ _ M) S' (up_pos _ _ _ M') Ls Lm N1 N2) as L1. pose proof (mul_up _ _ Hp Hm _ _ S (up_pos _ _ _ M) N1) as U1. pose proof (mul_up _ _ Hp Hm _ _ S' (up_pos _ _ _ M') N2) as U2.
    pose proof (o_four N I) as F. pose proof (o_pi2 N I) as G. assert (Rf := leq_refl _ _ _ (proj1 (up_pos _ _ _ F))). assert (Rg := leq_refl _ _ _ (proj1 (up_pos _ _ _ G))).
    destruct (third _ _ _ _ U1 U2 F F L1 Rf) as [V1 L2]. destruct (third _ _ _ _ U2 U2 F F (leq_refl _ _ _ (proj1 U2)) Rf) as [V2 _].
    exact (proj2 (third _ _ _ _ V1 V2 G G L2 Rg)).
  Qed.
  Lemma semiparameter_mono (h h' mu mu' : bf) : nonneg h -> nonneg h' -> positive mu -> positive mu' -> h <=. h' -> mu' <=. mu ->
    @semiparameter _ N h mu <=. @semiparameter _ N h' mu'.
  Proof using I Hp Hm.
    intros A A' M M' L Lm. unfold semiparameter. ops. apply third; try assumption; try (apply sqr_up; try assumption; now apply fin_num, (proj2 A)); try (apply sqr_up; try assumption; now apply fin_num, (proj2 A')).
    now apply nonneg_leq.
  Qed.
  (** energy: farther out or faster means a larger ellipse *)
  Lemma energy_mono (r r' v v' mu : bf) : positive r -> positive r' -> nonneg v -> nonneg v' -> positive mu -> r <=. r' -> v <=. v' ->
    number (@semimajor_axis _ N r v mu) -> less zero (@semimajor_axis _ N r' v' mu) -> @semimajor_axis _ N r v mu <=. @semimajor_axis _ N r' v' mu.
  Proof using I Hp Hm.
    intros P P' V V' M Lr Lv Na Za. unfold semimajor_axis in *. revert Na Za. ops. intros Na Za. pose proof (o_two N I) as T.
    pose proof (sqr_up _ _ Hp Hm v (fin_num _ _ _ (proj2 V))) as S. pose proof (sqr_up _ _ Hp Hm v' (fin_num _ _ _ (proj2 V'))) as S'. pose proof (nonneg_leq _ _ V V' Lv) as Ls.
    pose proof (leq_refl _ _ _ (proj1 (up_pos _ _ _ M))) as Rm. pose proof (leq_refl _ _ _ (proj1 (up_pos _ _ _ T))) as Rt.
    destruct (third _ _ mu mu S S' M M Ls Rm) as [D1 L1]. destruct (third _ _ mu mu S' S' M M (leq_refl _ _ _ (proj1 S')) Rm) as [D1' _].
    destruct (fourth _ _ _ _ T T (up_pos _ _ _ P') (up_pos _ _ _ P) Rt Lr) as [D2' L2]. destruct (fourth _ _ _ _ T T (up_pos _ _ _ P) (up_pos _ _ _ P) Rt (leq_refl _ _ _ (proj1 (up_pos _ _ _ P)))) as [D2 _].
    set (k := div (mul v v) mu) in *. set (k' := div (mul v' v') mu) in *. set (g := div _ r) in *. set (g' := div _ r') in *.
    assert (NN : forall x : bf, number (div one x) -> number x). { intros x. destruct x; try reflexivity. intros C. destruct one; discriminate C. }
    assert (N1 : number (sub g k)) by now apply NN. pose proof (pos_up _ _ _ Za) as [Na' Sa'].
    assert (N2 : number (sub g' k')) by now apply NN.
    assert (L : sub g' k' <=. sub g k) by (apply sub_leq; assumption).
    assert (U' : up _ _ (sub g' k')). { split; [exact N2|]. destruct (Bsign (sub g' k')) eqn:Sg; [|reflexivity]. pose proof (div_neg _ _ Hp Hm one _ one_up N2 Sg Na'). congruence. }
    assert (U : up _ _ (sub g k)). { apply sub_up; try assumption; [apply D1|]. pose proof (up_ge _ _ _ U'). apply leq_val in L. destruct L as (_ & _ & L). lra. }
    apply fourth; try assumption; try exact one_pos. apply leq_refl, one_up.
  Qed.

  (** anomalies and residuals *)
  Lemma scale_mono (k x y : bf) : up _ _ k -> is_finite x = true -> is_finite y = true -> x <=. y -> number (mul k x) -> number (mul k y) -> mul k x <=. mul k y.
  Proof using Hp Hm.
    intros U Fx Fy L Nx Ny. destruct (is_finite k) eqn:Fk.
    - apply leq_val. repeat split; try assumption. rewrite (proj2 (mul_val _ _ Hp Hm k x Fk Fx)), (proj2 (mul_val _ _ Hp Hm k y Fk Fy)). apply clamp_le, rnd_le; try assumption.
      apply Rmult_le_compat_l; [now apply up_R|now apply up_fin_leq].
    - rewrite (inf_up _ _ _ U Fk) in *. destruct x as [[]|[]| |[]], y as [[]|[]| |[]]; try discriminate; try reflexivity.
  Qed.
  Lemma rate_up (a mu : bf) : up _ _ a -> positive mu -> up _ _ (Bsqrt mode_NE (div mu (mul a (mul a a)))).
  Proof using Hp Hm.
    intros A M. apply sqrt_up; try assumption. pose proof (cube_up _ _ Hp Hm a A) as C. apply div_up; try assumption; [now apply up_pos|]. now apply div_number.
  Qed.
  Lemma rate_leq (a a' mu mu' : bf) : up _ _ a -> up _ _ a' -> positive mu -> positive mu' -> a <=. a' -> mu' <=. mu ->
    Bsqrt mode_NE (div mu' (mul a' (mul a' a'))) <=. Bsqrt mode_NE (div mu (mul a (mul a a))).
  Proof using Hp Hm.
    intros A A' M M' L Lm. pose proof (cube_up _ _ Hp Hm a A) as C. pose proof (cube_up _ _ Hp Hm a' A') as C'.
    apply sqrt_leq; try assumption; try (apply div_up; try assumption; [now apply up_pos|now apply div_number]).
    apply fourth; try assumption. now apply cube_leq.
  Qed.
  Lemma anomaly_time_mono (a t t' mu : bf) : positive a -> positive mu -> is_finite t = true -> is_finite t' = true -> t <=. t' ->
    number (@mean_anomaly_elps _ N a t mu) -> number (@mean_anomaly_elps _ N a t' mu) -> @mean_anomaly_elps _ N a t mu <=. @mean_anomaly_elps _ N a t' mu.
  Proof using I Hp Hm.
    intros A M F F' L. unfold mean_anomaly_elps. ops. intros. apply scale_mono; try assumption. apply rate_up; [now apply up_pos|assumption].
  Qed.
  Lemma anomaly_size_mono (a a' t mu mu' : bf) : positive a -> positive a' -> positive mu -> positive mu' -> positive t -> a <=. a' -> mu' <=. mu ->
    @mean_anomaly_elps _ N a' t mu' <=. @mean_anomaly_elps _ N a t mu.
  Proof using I Hp Hm.
    intros A A' M M' T L Lm. unfold mean_anomaly_elps. ops. pose proof (rate_up a mu (up_pos _ _ _ A) M) as U. pose proof (rate_up a' mu' (up_pos _ _ _ A') M') as U'.
    apply mul_leq; try assumption; try (now apply up_pos); try (now apply mul_number); [|apply leq_refl, up_pos, T]. apply rate_leq; try assumption; now apply up_pos.
  Qed.
  Lemma residuals_mono (x e m m' : bf) : m <=. m' ->
    (number (@kepler_equ_elps _ N x e m) -> number (@kepler_equ_elps _ N x e m') -> @kepler_equ_elps _ N x e m' <=. @kepler_equ_elps _ N x e m) /\
    (number (@kepler_equ_hypb _ N x e m) -> number (@kepler_equ_hypb _ N x e m') -> @kepler_equ_hypb _ N x e m' <=. @kepler_equ_hypb _ N x e m).
  Proof using I Hp Hm.
    intros L. assert (S : forall z : bf, number (sub z m) -> number (sub z m') -> sub z m' <=. sub z m).
    { intros z A B. apply sub_leq; try assumption. apply leq_refl. destruct z; try reflexivity. destruct m; discriminate A. }
    unfold kepler_equ_elps, kepler_equ_hypb. split; rewrite !(o_sub N I); apply S.
  Qed.
  Lemma residual_uni_mono (chi alpha r0 sigma0 t t' mu : bf) : positive mu -> is_finite t = true -> is_finite t' = true -> t <=. t' ->
    number (@kepler_equ_uni _ N chi alpha r0 sigma0 t mu) -> number (@kepler_equ_uni _ N chi alpha r0 sigma0 t' mu) ->
    @kepler_equ_uni _ N chi alpha r0 sigma0 t' mu <=. @kepler_equ_uni _ N chi alpha r0 sigma0 t mu.
  Proof using I Hp Hm.
    intros M F F' L. unfold kepler_equ_uni. generalize (n_add (n_add (n_mul r0 (Uniformulas.ufunc1 chi alpha)) (n_mul sigma0 (Uniformulas.ufunc2 chi alpha))) (Uniformulas.ufunc3 chi alpha)). intros z.
    rewrite !(o_sub N I), !(o_mul N I), !(o_sqrt N I). intros A B.
    assert (NN : forall x y : bf, number (sub x y) -> number x /\ number y). { intros x y. destruct x, y; try discriminate; intros _; split; reflexivity. }
    apply sub_leq; try assumption; [apply leq_refl, (NN _ _ A)|]. apply scale_mono; try assumption; [apply sqrt_up; try assumption; now apply up_pos|apply (NN _ _ A)|apply (NN _ _ B)].
  Qed.

  (** path checks *)
  Lemma lower_mono (rmin rmin' mu : bf) (r v : V3 bf) : rmin <=. rmin' -> @rp_islower_rmin _ N rmin r v mu = true -> @rp_islower_rmin _ N rmin' r v mu = true.
  Proof using I. unfold rp_islower_rmin. rewrite !(o_lt N I). intros L B. exact (less_leq_trans _ _ _ _ _ B L). Qed.
  Lemma max_pos (x y x' y' : bf) : positive x -> positive y -> positive x' -> positive y' -> x <=. x' -> y <=. y' ->
    positive (@n_max _ N x y) /\ @n_max _ N x y <=. @n_max _ N x' y'.
  Proof using I.
    intros X Y X' Y' Lx Ly. rewrite !(o_max N I). rewrite (fin_num _ _ _ (proj2 X)), (fin_num _ _ _ (proj2 Y)), (fin_num _ _ _ (proj2 X')), (fin_num _ _ _ (proj2 Y')).
    assert (G : forall u v : bf, positive u -> positive v -> Bltb u v = false -> v <=. u).
    { intros u v [_ Fu] [_ Fv] B. apply up_fin_leq; try assumption. rewrite (Bltb_correct _ _ u v Fu Fv) in B. destruct (Rlt_bool_spec (B2R u) (B2R v)); [discriminate|assumption]. }
    destruct (Bltb x y) eqn:B, (Bltb x' y') eqn:B'; split; try assumption.
    - eapply leq_trans; [exact Ly|]. now apply G.
    - eapply leq_trans; [exact Lx|]. now apply less_leq.
  Qed.
  Lemma nmax_mono (rp rp' r1 r1' r2 r2' t t' mu mu' : bf) :
    positive rp -> positive rp' -> positive r1 -> positive r1' -> positive r2 -> positive r2' -> positive t -> positive t' -> positive mu -> positive mu' ->
    rp' <=. rp -> r1' <=. r1 -> r2' <=. r2 -> t <=. t' -> mu <=. mu' ->
    number (@nmax_by_periapsis _ N rp r1 r2 t mu) -> number (@nmax_by_periapsis _ N rp' r1' r2' t' mu') ->
    @nmax_by_periapsis _ N rp r1 r2 t mu <=. @nmax_by_periapsis _ N rp' r1' r2' t' mu'.
  Proof using I Hp Hm.
    intros P P' A A' B B' T T' M M' Lp La Lb Lt Lm. unfold nmax_by_periapsis. ops. intros N1 N2. apply floor_leq; try assumption.
    destruct (max_pos _ _ _ _ A' B' A B La Lb) as [X' Lx]. destruct (max_pos _ _ _ _ A B A B (leq_refl _ _ _ (proj1 (up_pos _ _ _ A))) (leq_refl _ _ _ (proj1 (up_pos _ _ _ B)))) as [X _].
    assert (S : forall x y : bf, positive x -> positive y -> up _ _ (add x y)).
    { intros x y Px Py. pose proof (pos_R _ _ _ Px). pose proof (pos_R _ _ _ Py). apply add_up; try assumption; [now apply up_pos|apply Px|apply Py|lra]. }
    pose proof (S _ _ X P) as U. pose proof (S _ _ X' P') as U'. pose proof (o_half N I) as H. pose proof (o_twopi N I) as W.
    assert (Ls : add (n_max r1' r2') rp' <=. add (n_max r1 r2) rp) by (apply add_leq; try assumption; [apply U'|apply U]).
    pose proof (mul_number' _ _ Hp Hm _ _ H U) as Q. pose proof (mul_number' _ _ Hp Hm _ _ H U') as Q'.
    pose proof (mul_up _ _ Hp Hm _ _ (up_pos _ _ _ H) U Q) as V. pose proof (mul_up _ _ Hp Hm _ _ (up_pos _ _ _ H) U' Q') as V'.
    pose proof (mul_leq _ _ _ _ (up_pos _ _ _ H) U' (up_pos _ _ _ H) U (leq_refl _ _ _ (proj1 (up_pos _ _ _ H))) Ls Q' Q) as Lv.
    pose proof (rate_leq _ _ _ _ V' V M' M Lv Lm) as Lr. pose proof (rate_up _ _ V M) as R. pose proof (rate_up _ _ V' M') as R'.
    destruct (third _ _ _ _ (up_pos _ _ _ T) (up_pos _ _ _ T') W W Lt (leq_refl _ _ _ (proj1 (up_pos _ _ _ W)))) as [Y Ly].
    destruct (third _ _ _ _ (up_pos _ _ _ T') (up_pos _ _ _ T') W W (leq_refl _ _ _ (proj1 (up_pos _ _ _ T'))) (leq_refl _ _ _ (proj1 (up_pos _ _ _ W)))) as [Y' _].
    assert (NF : forall x : bf, number (Bnearbyint mode_DN x) -> number x). { intros x. destruct x; try reflexivity. discriminate. }
    apply mul_leq; try assumption; now apply NF.
  Qed.

  (** distance, the radius event and the pull of a point mass *)
  Lemma sum_up (x y : bf) : up _ _ x -> up _ _ y -> up _ _ (add x y).
  Proof using Hp Hm.
    intros U V. destruct (is_finite x) eqn:F; [destruct (is_finite y) eqn:G|].
    - apply add_up; try assumption. pose proof (up_R _ _ _ U). pose proof (up_R _ _ _ V). lra.
    - rewrite (inf_up _ _ _ V G). destruct x as [[]|[]| |[]]; try discriminate; now split.
    - rewrite (inf_up _ _ _ U F). destruct V as [V1 V2]. destruct y as [[]|[]| |[]]; try discriminate; now split.
  Qed.
  Lemma closer_sqr (x y : bf) : closer x y -> up _ _ (mul x x) /\ up _ _ (mul y y) /\ mul x x <=. mul y y.
  Proof using Hp Hm.
    intros (A & B & C). apply up_fin_leq in C; rewrite ?is_finite_Babs; try assumption. rewrite !B2R_Babs in C. pose proof (sqr_up _ _ Hp Hm x (fin_num _ _ _ A)) as U. pose proof (sqr_up _ _ Hp Hm y (fin_num _ _ _ B)) as V. repeat split; try apply U; try apply V.
    apply leq_val. repeat split; [apply U|apply V|]. rewrite (proj2 (mul_val _ _ Hp Hm x x A A)), (proj2 (mul_val _ _ Hp Hm y y B B)). apply clamp_le, rnd_le; try assumption.
    apply Rsqr_le_abs_1 in C. exact C.
  Qed.
  Lemma norm_leq (x0 x1 x2 y0 y1 y2 : bf) (xs ys : list bf) : closer x0 y0 -> closer x1 y1 -> closer x2 y2 ->
    up _ _ (@norm_first3 _ N (x0 :: x1 :: x2 :: xs)) /\ up _ _ (@norm_first3 _ N (y0 :: y1 :: y2 :: ys)) /\ @norm_first3 _ N (x0 :: x1 :: x2 :: xs) <=. @norm_first3 _ N (y0 :: y1 :: y2 :: ys).
  Proof using I Hp Hm.
    intros A B C. destruct (closer_sqr _ _ A) as (A1 & A2 & A3), (closer_sqr _ _ B) as (B1 & B2 & B3), (closer_sqr _ _ C) as (C1 & C2 & C3).
    unfold norm_first3. cbn [firstn sumsq fold_left]. ops.
    pose proof (sum_up _ _ A1 B1) as S1. pose proof (sum_up _ _ A2 B2) as S2. pose proof (sum_up _ _ S1 C1) as T1. pose proof (sum_up _ _ S2 C2) as T2.
    split; [now apply sqrt_up|split; [now apply sqrt_up|]]. apply sqrt_leq; try assumption. apply add_leq; try assumption; [|apply T1|apply T2]. apply add_leq; try assumption; [apply S1|apply S2].
  Qed.
  Lemma event_mono (t t' x0 x1 x2 y0 y1 y2 rmin rmin' : bf) (xs ys : list bf) :
    closer x0 y0 -> closer x1 y1 -> closer x2 y2 -> is_finite rmin = true -> is_finite rmin' = true -> rmin' <=. rmin ->
    exists a b, @radius_islow _ N t (x0 :: x1 :: x2 :: xs) [("rmin"%string, rmin)] = Ok a /\ @radius_islow _ N t' (y0 :: y1 :: y2 :: ys) [("rmin"%string, rmin')] = Ok b /\ a <=. b.
  Proof using I Hp Hm.
    intros A B C F F' L. destruct (norm_leq _ _ _ _ _ _ xs ys A B C) as (U & V & W). eexists. eexists. split; [reflexivity|split; [reflexivity|]]. rewrite !(o_sub N I).
    assert (S : forall x y : bf, up _ _ x -> is_finite y = true -> number (sub x y)).
    { intros x y X Y. destruct (is_finite x) eqn:G; [now apply sub_val|]. rewrite (inf_up _ _ _ X G). destruct y as [[]|[]| |[]]; try discriminate; reflexivity. }
    apply sub_leq; try assumption; now apply S.
  Qed.
  Lemma pull_mono (k k' x : bf) : up _ _ k -> up _ _ k' -> k <=. k' -> is_finite x = true -> number (mul (Bopp k) x) -> number (mul (Bopp k') x) ->
    (zero <=. x -> mul (Bopp k') x <=. mul (Bopp k) x /\ mul (Bopp k) x <=. zero) /\ (x <=. zero -> mul (Bopp k) x <=. mul (Bopp k') x /\ zero <=. mul (Bopp k) x).
  Proof using Hp Hm.
    intros U U' L F Nk Nk'. assert (Fz : is_finite (zero : bf) = true) by reflexivity.
    assert (Sg : zero <=. x -> 0 <= B2R x) by (intros Z; apply up_fin_leq in Z; assumption). assert (Sg' : x <=. zero -> B2R x <= 0) by (intros Z; apply up_fin_leq in Z; assumption).
    pose proof (up_R _ _ _ U) as R. pose proof (up_R _ _ _ U') as R'.
    assert (Z : is_finite k = true -> (zero <=. x -> mul (Bopp k) x <=. zero) /\ (x <=. zero -> zero <=. mul (Bopp k) x)).
    { intros Fk. split; intros Hx; [specialize (Sg Hx)|specialize (Sg' Hx)]; [apply mul_le|apply mul_ge]; rewrite ?is_finite_Bopp; try assumption; rewrite B2R_Bopp; cbn; nra. }
    destruct (is_finite k') eqn:Fk'.
    - assert (Fk := below_fin _ _ _ _ U L Fk'). destruct (Z Fk) as [Z1 Z2]. apply up_fin_leq in L; try assumption.
      split; intros Hx; (split; [|auto]); apply leq_val; repeat split; try assumption;
        rewrite (proj2 (mul_val _ _ Hp Hm _ x (eq_trans (is_finite_Bopp _ _ _) Fk) F)), (proj2 (mul_val _ _ Hp Hm _ x (eq_trans (is_finite_Bopp _ _ _) Fk') F)); apply clamp_le, rnd_le; try assumption; rewrite !B2R_Bopp;
        [specialize (Sg Hx)|specialize (Sg' Hx)]; nra.
    - rewrite (inf_up _ _ _ U' Fk') in *. destruct x as [s|s| |s m e Hb]; try discriminate. destruct s.
      + split; [intros Hx; exfalso; specialize (Sg Hx); revert Sg; apply Rlt_not_le, F2R_lt_0; reflexivity|]. intros Hx. split; [apply leq_inf; assumption|].
        destruct (is_finite k) eqn:Fk; [now apply Z|]. rewrite (inf_up _ _ _ U Fk). reflexivity.
      + split; [|intros Hx; exfalso; specialize (Sg' Hx); revert Sg'; apply Rlt_not_le, F2R_gt_0; reflexivity]. intros Hx. split.
        * apply leq_val. repeat split; try assumption. apply val_bounds.
        * destruct (is_finite k) eqn:Fk; [now apply Z|]. rewrite (inf_up _ _ _ U Fk). reflexivity.
  Qed.
  Lemma point_mass_mono (t t' x0 x1 x2 y0 y1 y2 mu mu' : bf) (xs ys : list bf) :
    closer y0 x0 -> closer y1 x1 -> closer y2 x2 -> positive mu -> positive mu' -> mu <=. mu' ->
    exists a b, @point_mass_grav _ N t (x0 :: x1 :: x2 :: xs) [("mu"%string, mu)] = Ok a /\ @point_mass_grav _ N t' (y0 :: y1 :: y2 :: ys) [("mu"%string, mu')] = Ok b /\
      (y0 = x0 -> number (c0 a) -> number (c0 b) -> pulls x0 (c0 a) (c0 b)) /\ (y1 = x1 -> number (c1 a) -> number (c1 b) -> pulls x1 (c1 a) (c1 b)) /\
      (y2 = x2 -> number (c2 a) -> number (c2 b) -> pulls x2 (c2 a) (c2 b)).
  Proof using I Hp Hm.
    intros A B C M M' L. destruct (norm_leq _ _ _ _ _ _ ys xs A B C) as (U & V & W). eexists. eexists. split; [reflexivity|split; [reflexivity|]]. cbn [c0 c1 c2]. ops.
    revert U V W. generalize (@norm_first3 _ N (y0 :: y1 :: y2 :: ys)) (@norm_first3 _ N (x0 :: x1 :: x2 :: xs)). intros n m U V W.
    pose proof (cube_up _ _ Hp Hm n U) as Cn. pose proof (cube_up _ _ Hp Hm m V) as Cm. pose proof (cube_leq _ _ Hp Hm _ _ U V W) as Lc.
    destruct (fourth _ _ _ _ M M' Cm Cn L Lc) as [K Lk]. destruct (fourth _ _ _ _ M' M' Cn Cn (leq_refl _ _ _ (proj1 (up_pos _ _ _ M'))) (leq_refl _ _ _ (proj1 Cn))) as [K' _].
    destruct A as (_ & Fa & _), B as (_ & Fb & _), C as (_ & Fc & _). repeat split; subst; intros; now apply (pull_mono _ _ _ K K' Lk).
  Qed.
End Main.
