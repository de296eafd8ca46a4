(** * SgnCalc3: the laws of [SgnCalc] applied to the orbital elements, the path
    checks and the gravity models. *)
From Coq Require Import ZArith Bool List Lia String.
From Verif Require Import Num OrbIntegrals Uniformulas Lagrange KepEqu StateTrans PropKepler PathCheck Gravity SgnCalc SgnCalc2.
Import ListNotations.
Local Open Scope num_scope.

Definition det (s : V3 bool) : bool := xorb (c0 s) (xorb (c1 s) (c2 s)).

Section Elements.
  Context {T : Type} {N : Num T} (zero : T -> Prop) (Lw : sgn_laws zero).
  Notation Rel := (Rl zero).
  Let FL := Rfl zero.

  Ltac bb := unfold det; repeat match goal with |- context [c0 ?s] => is_var s; destruct s as [[] [] []]; cbn [c0 c1 c2] | |- context [xorb ?x _] => is_var x; destruct x
     | |- context [xorb _ ?x] => is_var x; destruct x end; reflexivity.
  Lemma RVcross (c d u : bool) (s : V3 bool) (a a' b b' : V3 T) : RV zero c s a a' -> RV zero d s b b' -> xorb (xorb c d) (det s) = u ->
    RV zero u s (vcross a b) (vcross a' b').
  Proof using Lw.
    intros (A0 & A1 & A2) (B0 & B1 & B2) <-. unfold vcross. split; [|split]; cbn [c0 c1 c2];
      (apply (Rsub zero Lw); (eapply (Rmul zero Lw); [eassumption|eassumption|bb])).
  Qed.
  Section State.
    Context (c : bool) (s : V3 bool) (x x' v v' : V3 T) (HX : RV zero false s x x') (HV : RV zero c s v v').
    Lemma h_rel : RV zero (xorb c (det s)) s (angular_momentum x v) (angular_momentum x' v').
    Proof using HX HV Lw. unfold angular_momentum. eapply RVcross; [exact HX|exact HV|destruct c; reflexivity]. Qed.
    Lemma ecc_rel (mu : T) : RV zero false s (eccentricity_vector x v mu) (eccentricity_vector x' v' mu).
    Proof using HX HV Lw.
      unfold eccentricity_vector. cbv zeta. apply (RVsub zero Lw); apply (RVdivs zero Lw); [reflexivity| |now apply (Rnorm zero Lw _ _ _ _ HX)|exact HX].
      eapply RVcross; [exact HV|apply h_rel|]. rewrite xorb_assoc_reverse. destruct c, (det s); reflexivity.
    Qed.
    Lemma elements_same (mu rmin : T) :
      vector_norm (angular_momentum x' v') = vector_norm (angular_momentum x v) /\
      vector_norm (eccentricity_vector x' v' mu) = vector_norm (eccentricity_vector x v mu) /\
      vector_norm x' = vector_norm x /\ vector_norm v' = vector_norm v /\
      rp_islower_rmin rmin x' v' mu = rp_islower_rmin rmin x v mu.
    Proof using HX HV Lw.
      pose proof (Rnorm zero Lw _ _ _ _ h_rel) as E1. pose proof (Rnorm zero Lw _ _ _ _ (ecc_rel mu)) as E2.
      repeat split; auto; [apply (Rnorm zero Lw _ _ _ _ HX)|apply (Rnorm zero Lw _ _ _ _ HV)|].
      unfold rp_islower_rmin. cbv zeta. now rewrite E1, E2.
    Qed.
  End State.
  Lemma checks_same (s : V3 bool) (r1 r1' v1 v1' r2 r2' : V3 T) (mu : T) : RV zero false s r1 r1' -> RV zero false s v1 v1' -> RV zero false s r2 r2' ->
    is_short_way r1' v1' r2' = is_short_way r1 v1 r2 /\ pass_perigee r1' v1' r2' mu = pass_perigee r1 v1 r2 mu.
  Proof using Lw.
    intros HR HV H2. pose proof (ecc_rel false s _ _ _ _ HR HV mu) as HE.
    assert (K : forall a a' b b' p p' q q', RV zero false s a a' -> RV zero false s b b' -> RV zero false s p p' -> RV zero false s q q' ->
       n_gt (vinner (vcross a' b') (vcross p' q')) (#0) = n_gt (vinner (vcross a b) (vcross p q)) (#0)).
    { intros a a' b b' p p' q q' A B P Q. unfold n_gt. apply (sl_lt _ Lw); [apply FL|].
      eapply (Rinner zero Lw (det s) (det s)); [eapply RVcross; [exact A|exact B|apply xorb_false_l]|eapply RVcross; [exact P|exact Q|apply xorb_false_l]|apply xorb_nilpotent]. }
    assert (S : is_short_way r1' v1' r2' = is_short_way r1 v1 r2) by (apply K; assumption).
    split; [exact S|]. unfold pass_perigee. cbv zeta. rewrite S. f_equal. f_equal; apply K; assumption.
  Qed.

  (** ** gravity *)
  Definition same_res (P : V3 T -> V3 T -> Prop) (a b : res (V3 T)) : Prop :=
    match a, b with Ok u, Ok w => P u w | Raise e, Raise e' => e = e' | _, _ => False end.
  Lemma bind_same {A : Type} (P : V3 T -> V3 T -> Prop) (m : res A) (f g : A -> res (V3 T)) :
    (forall a, same_res P (f a) (g a)) -> same_res P (bind m f) (bind m g).
  Proof using. intros H. destruct m; cbn [bind]; [apply H|reflexivity]. Qed.
  Section Grav.
    Context (s : V3 bool) (a : V3 T) (rest rest' : list T) (t t' : T) (args : dict (T := T)).
    Let x := c0 a :: c1 a :: c2 a :: rest.
    Let x' := c0 (vflip false s a) :: c1 (vflip false s a) :: c2 (vflip false s a) :: rest'.
    Lemma norm3 (b : V3 T) (l : list T) : norm_first3 (c0 b :: c1 b :: c2 b :: l) = vector_norm b.
    Proof using. reflexivity. Qed.
    Lemma norm3_same : norm_first3 x' = norm_first3 x.
    Proof using Lw. unfold x, x'. rewrite !norm3. apply (norm_flip zero Lw). Qed.
    Lemma jget3 (b : V3 T) (l : list T) : jget (c0 b :: c1 b :: c2 b :: l) 0 = Ok (c0 b) /\ jget (c0 b :: c1 b :: c2 b :: l) 1 = Ok (c1 b) /\ jget (c0 b :: c1 b :: c2 b :: l) 2 = Ok (c2 b).
    Proof using. unfold jget. cbn [List.length]. repeat split; (rewrite Nat.min_l by lia; reflexivity). Qed.
    Let fl0 : Rel (c0 s) (c0 a) (c0 (vflip false s a)). Proof using. left. unfold vflip. cbn [c0]. now rewrite xorb_false_l. Qed.
    Let fl1 : Rel (c1 s) (c1 a) (c1 (vflip false s a)). Proof using. left. unfold vflip. cbn [c1]. now rewrite xorb_false_l. Qed.
    Let fl2 : Rel (c2 s) (c2 a) (c2 (vflip false s a)). Proof using. left. unfold vflip. cbn [c2]. now rewrite xorb_false_l. Qed.
    Ltac gr := destruct (jget3 a rest) as (J0 & J1 & J2); destruct (jget3 (vflip false s a) rest') as (K0 & K1 & K2); fold x in J0, J1, J2; fold x' in K0, K1, K2;
      repeat (apply bind_same; intros ?); rewrite ?J0, ?J1, ?J2, ?K0, ?K1, ?K2, ?norm3_same; cbn [bind]; rewrite ?J0, ?J1, ?J2, ?K0, ?K1, ?K2, ?norm3_same; cbn [bind same_res].
    Lemma pm_mirror : same_res (RV zero false s) (point_mass_grav t x args) (point_mass_grav t' x' args).
    Proof using Lw fl0 fl1 fl2.
      unfold point_mass_grav. gr. unfold RV; cbn [c0 c1 c2]. rewrite !xorb_false_l.
      repeat split; (eapply (Rmul zero Lw false); [apply FL|eassumption|apply xorb_false_l]).
    Qed.
    Lemma zz_same (r : T) : (c2 (vflip false s a) / r) ** 2 = (c2 a / r) ** 2.
    Proof using Lw fl2. apply (Rpow2 zero Lw (c2 s)). apply (Rdiv zero Lw); [exact fl2|reflexivity]. Qed.
    Lemma j2_mirror : same_res (RV zero false s) (j2_acc t x args) (j2_acc t' x' args).
    Proof using Lw fl0 fl1 fl2.
      unfold j2_acc. gr. rewrite zz_same. unfold RV; cbn [c0 c1 c2]. rewrite !xorb_false_l.
      repeat split; (eapply (Rmul zero Lw _ false); [|apply FL|apply xorb_false_r]; eapply (Rmul zero Lw false); [apply FL|eassumption|apply xorb_false_l]).
    Qed.
    Lemma j4_mirror : same_res (RV zero false s) (j4_acc t x args) (j4_acc t' x' args).
    Proof using Lw fl0 fl1 fl2.
      unfold j4_acc. gr. rewrite zz_same. unfold RV; cbn [c0 c1 c2]. rewrite !xorb_false_l.
      repeat split; (eapply (Rmul zero Lw _ false); [|apply FL|apply xorb_false_r]; eapply (Rmul zero Lw false); [apply FL|eassumption|apply xorb_false_l]).
    Qed.
    (** the third harmonic is odd in z *)
    Lemma j3_mirror : same_res (RV zero (c2 s) s) (j3_acc t x args) (j3_acc t' x' args).
    Proof using Lw fl0 fl1 fl2.
      unfold j3_acc. gr. unfold RV; cbn [c0 c1 c2].
      set (r := norm_first3 x). set (z := c2 a) in *. set (z' := c2 (vflip false s a)) in *.
      assert (Z3 : Rel (c2 s) (z ** 3 / r ** 2) (z' ** 3 / r ** 2)) by (apply (Rdiv zero Lw); [now apply (Rpow3 zero Lw)|reflexivity]).
      assert (K : forall k u w, Rel (c2 s) u w -> Rel (c2 s) (k * u) (k * w)) by (intros; eapply (Rmul zero Lw false); [apply FL|eassumption|apply xorb_false_l]).
      assert (B : Rel (c2 s) (#3 * z - #7 * (z ** 3 / r ** 2)) (#3 * z' - #7 * (z' ** 3 / r ** 2))) by (apply (Rsub zero Lw); apply K; assumption).
      repeat split.
      - eapply (Rmul zero Lw (c0 s) (c2 s)); [|exact B|apply xorb_comm]. eapply (Rmul zero Lw false); [apply FL|exact fl0|apply xorb_false_l].
      - eapply (Rmul zero Lw (c1 s) (c2 s)); [|exact B|apply xorb_comm]. eapply (Rmul zero Lw false); [apply FL|exact fl1|apply xorb_false_l].
      - rewrite xorb_nilpotent. eapply (Rmul zero Lw false false); [apply FL| |reflexivity]. apply (Rsub zero Lw); [|apply FL].
        apply (Rsub zero Lw); [rewrite (Rpow2 zero Lw _ _ _ fl2); apply FL|]. eapply (Rmul zero Lw (c2 s) (c2 s)); [now apply K|exact fl2|apply xorb_nilpotent].
    Qed.
    Lemma radius_mirror : radius_islow t' x' args = radius_islow t x args.
    Proof using Lw. unfold radius_islow. now rewrite norm3_same. Qed.
  End Grav.
End Elements.
