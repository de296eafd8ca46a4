(** * SgnSwap: the formulas on states whose first two axes are exchanged.

    The first section uses nothing but the commutativity of the sum; the second also the laws of [SgnCalc]. *)
From Coq Require Import ZArith Bool List Lia String.
From Verif Require Import Num OrbIntegrals Uniformulas Lagrange KepEqu StateTrans PropKepler PathCheck Gravity LoopFacts SpecSwap SgnCalc SgnCalc2 SgnCalc3.
Import ListNotations.
Local Open Scope num_scope.

Section Exact.
  Context {T : Type} {N : Num T} (AC : forall a b : T, a + b = b + a).
  Notation sw := exchange.
  Notation sM := mexchange.

  Lemma sw_inner (a b : V3 T) : vinner (sw a) (sw b) = vinner a b.
  Proof using AC. unfold vinner, exchange; cbn [c0 c1 c2]. now rewrite (AC (c1 a * c1 b)). Qed.
  Lemma sw_norm (a : V3 T) : vector_norm (sw a) = vector_norm a.
  Proof using AC. unfold vector_norm. now rewrite sw_inner. Qed.
  Lemma sw_sigma (a b : V3 T) (mu : T) : sigma_fn (sw a) (sw b) mu = sigma_fn a b mu.
  Proof using AC. unfold sigma_fn. now rewrite sw_inner. Qed.
  Lemma sw_add (a b : V3 T) : vadd (sw a) (sw b) = sw (vadd a b). Proof using. reflexivity. Qed.
  Lemma sw_sub (a b : V3 T) : vsub (sw a) (sw b) = sw (vsub a b). Proof using. reflexivity. Qed.
  Lemma sw_scale (k : T) (a : V3 T) : vscale k (sw a) = sw (vscale k a). Proof using. reflexivity. Qed.
  Lemma sw_divs (k : T) (a : V3 T) : vdivs (sw a) k = sw (vdivs a k). Proof using. reflexivity. Qed.
  Lemma sM_outer (a b : V3 T) : outer (sw a) (sw b) = sM (outer a b). Proof using. reflexivity. Qed.
  Lemma sM_eye : sM (eye3 (T := T)) = eye3. Proof using. reflexivity. Qed.
  Lemma sM_add (A B : M3 T) : madd (sM A) (sM B) = sM (madd A B). Proof using. reflexivity. Qed.
  Lemma sM_sub (A B : M3 T) : msub (sM A) (sM B) = sM (msub A B). Proof using. reflexivity. Qed.
  Lemma sM_scale (k : T) (A : M3 T) : mscale k (sM A) = sM (mscale k A). Proof using. reflexivity. Qed.
  Lemma sM_divs (k : T) (A : M3 T) : mdivs (sM A) k = sM (mdivs A k). Proof using. reflexivity. Qed.
  Lemma sM_neg (A : M3 T) : mneg (sM A) = sM (mneg A). Proof using. reflexivity. Qed.
  Lemma sM_right (k : T) (A : M3 T) : vmap3 (fun row => vmap3 (fun x => x * k) row) (sM A) = sM (vmap3 (fun row => vmap3 (fun x => x * k) row) A).
  Proof using. reflexivity. Qed.
  Lemma sM_mul (A B : M3 T) : mmul (sM A) (sM B) = sM (mmul A B).
  Proof using AC.
    destruct A as [[a0 a1 a2] [b0 b1 b2] [d0 d1 d2]], B as [[p0 p1 p2] [q0 q1 q2] [r0 r1 r2]].
    assert (H : forall (u v w x y z : T), vinner (mk3 v u w) (mk3 y x z) = vinner (mk3 u v w) (mk3 x y z)) by (intros u v w x y z; exact (sw_inner (mk3 u v w) (mk3 x y z))).
    unfold mmul, mexchange, exchange, mcol, vmap3; cbn [c0 c1 c2]. f_equal; f_equal; apply H.
  Qed.
  Lemma sw_state_at (chi alpha sigma0 r0 mu : T) (x v : V3 T) :
    state_at_chi chi alpha sigma0 r0 (sw x) (sw v) mu = (sw (fst (state_at_chi chi alpha sigma0 r0 x v mu)), sw (snd (state_at_chi chi alpha sigma0 r0 x v mu))).
  Proof using. reflexivity. Qed.
  Lemma sw_kepler (ts : list T) (x v : V3 T) (mu : T) :
    kepler ts (sw x) (sw v) mu = map (fun p => (sw (fst p), sw (snd p))) (kepler ts x v mu).
  Proof using AC. rewrite !kepler_map, map_map. apply map_ext. intros t. unfold kepler1. cbv zeta. rewrite !sw_norm, sw_sigma. apply sw_state_at. Qed.

  Lemma sw_dxdx0 (r v r0 v0 : V3 T) (t mu : T) : let M := dxdx0 r v r0 v0 t mu in let M' := dxdx0 (sw r) (sw v) (sw r0) (sw v0) t mu in
    b_rr M' = sM (b_rr M) /\ b_rv M' = sM (b_rv M) /\ b_vr M' = sM (b_vr M) /\ b_vv M' = sM (b_vv M).
  Proof using AC.
    cbv zeta. unfold dxdx0. cbv zeta. cbn [b_rr b_rv b_vr b_vv]. rewrite !sw_norm, !sw_sigma.
    set (al := alpha_of _ _ _). set (chi := generalized_anomaly _ _ _ _ _). set (C := C_func _ _ _ _ _ _).
    set (F := lagrange_F _ _). set (G := lagrange_G _ _ _ _ _). set (Ft := lagrange_Ft _ _ _ _). set (Gt := lagrange_Gt _ _).
    assert (E : eye3 (T := T) = sM eye3) by reflexivity. 
    split; [|split; [|split]]; [unfold prpr0|unfold prpv0|unfold pvpr0|unfold pvpv0]; cbv zeta; rewrite E at 1; rewrite ?sw_norm, ?sw_divs, ?sw_sub, ?sM_outer, ?sM_sub, ?sM_neg, ?sM_divs, ?sM_scale.
    - now rewrite !sM_add.
    - now rewrite !sM_add.
    - rewrite sM_mul, !sM_add, sM_scale, sM_sub, sM_add, sM_sub. reflexivity.
    - rewrite sM_right, sM_divs, !sM_add, sM_sub, sM_add. reflexivity.
  Qed.

  (** ** gravity *)
  Definition rmap {A B : Type} (f : A -> B) (a : res A) : res B := match a with Ok u => Ok (f u) | Raise e => Raise e end.
  Lemma bind_rmap {A B : Type} (f : B -> B) (m : res A) (g h : A -> res B) : (forall a, h a = rmap f (g a)) -> bind m h = rmap f (bind m g).
  Proof using. intros H. destruct m; cbn [bind rmap]; [apply H|reflexivity]. Qed.
  Section Grav.
    Context (a : V3 T) (rest rest' : list T) (t t' : T) (args : dict (T := T)).
    Let x := c0 a :: c1 a :: c2 a :: rest.
    Let x' := c0 (sw a) :: c1 (sw a) :: c2 (sw a) :: rest'.
    Lemma sw_norm3 : norm_first3 x' = norm_first3 x.
    Proof using AC. unfold x, x'. rewrite !norm3. apply sw_norm. Qed.
    Lemma jg (b : V3 T) (l : list T) : jget (c0 b :: c1 b :: c2 b :: l) 0 = Ok (c0 b) /\ jget (c0 b :: c1 b :: c2 b :: l) 1 = Ok (c1 b) /\ jget (c0 b :: c1 b :: c2 b :: l) 2 = Ok (c2 b).
    Proof using. unfold jget. cbn [List.length]. repeat split; (rewrite Nat.min_l by lia; reflexivity). Qed.
    Ltac gr := destruct (jg a rest) as (J0 & J1 & J2); destruct (jg (sw a) rest') as (K0 & K1 & K2); fold x in J0, J1, J2; fold x' in K0, K1, K2;
      repeat (apply bind_rmap; intros ?); cbv zeta; rewrite ?J0, ?J1, ?J2, ?K0, ?K1, ?K2, ?sw_norm3; cbn [bind]; cbv zeta; rewrite ?J0, ?J1, ?J2, ?K0, ?K1, ?K2, ?sw_norm3; cbn [bind rmap]; reflexivity.
    Lemma pm_sw : point_mass_grav t' x' args = rmap sw (point_mass_grav t x args). Proof using AC. unfold point_mass_grav. gr. Qed.
    Lemma j2_sw : j2_acc t' x' args = rmap sw (j2_acc t x args). Proof using AC. unfold j2_acc. gr. Qed.
    Lemma j3_sw : j3_acc t' x' args = rmap sw (j3_acc t x args). Proof using AC. unfold j3_acc. gr. Qed.
    Lemma j4_sw : j4_acc t' x' args = rmap sw (j4_acc t x args). Proof using AC. unfold j4_acc. gr. Qed.
    Lemma radius_sw : radius_islow t' x' args = radius_islow t x args. Proof using AC. unfold radius_islow. now rewrite sw_norm3. Qed.
  End Grav.
End Exact.

Section Signed.
  Context {T : Type} {N : Num T} (zero : T -> Prop) (Lw : sgn_laws zero) (AC : forall a b : T, a + b = b + a)
    (SA : forall a b : T, a - b = a + - b) (ZN : forall a : T, zero a -> zero (- a)).
  Notation Rel := (Rl zero).
  Notation sw := exchange.
  Notation no := (mk3 false false false).
  Lemma Ranti (s : bool) (p p' q q' : T) : Rel s p p' -> Rel s q q' -> Rel (negb s) (p - q) (q' - p').
  Proof using Lw AC SA ZN.
    intros HP HQ. rewrite SA, (SA q'), (AC q'). apply (Radd zero Lw).
    - destruct HP as [->|[Z1 Z2]]; [left; destruct s; cbn [flp negb]; [apply (sl_negneg _ Lw)|reflexivity]|right; split; [exact Z1|now apply ZN]].
    - destruct HQ as [->|[Z1 Z2]]; [left; destruct s; cbn [flp negb]; [reflexivity|symmetry; apply (sl_negneg _ Lw)]|right; split; [now apply ZN|exact Z2]].
  Qed.
  (** the vector product changes its sign *)
  Lemma RVsw (c d : bool) (a a' b b' : V3 T) : RV zero c no (sw a) a' -> RV zero d no (sw b) b' ->
    RV zero (negb (xorb c d)) no (sw (vcross a b)) (vcross a' b').
  Proof using Lw AC SA ZN.
    intros (A0 & A1 & A2) (B0 & B1 & B2). unfold vcross, exchange in *. cbn [c0 c1 c2] in *. rewrite !xorb_false_r in *.
    split; [|split]; cbn [c0 c1 c2]; rewrite ?xorb_false_r; (apply Ranti; (eapply (Rmul zero Lw); [eassumption|eassumption|reflexivity])).
  Qed.
  Lemma RVno (a : V3 T) : RV zero false no a a. Proof using. split; [|split]; left; reflexivity. Qed.
  Lemma sw_h (x v : V3 T) : RV zero true no (sw (angular_momentum x v)) (angular_momentum (sw x) (sw v)).
  Proof using Lw AC SA ZN. unfold angular_momentum. apply (RVsw false false); apply RVno. Qed.
  Lemma sw_ecc (x v : V3 T) (mu : T) : RV zero false no (sw (eccentricity_vector x v mu)) (eccentricity_vector (sw x) (sw v) mu).
  Proof using Lw AC SA ZN.
    unfold eccentricity_vector. cbv zeta. rewrite <- sw_sub, <- !sw_divs, (sw_norm AC).
    apply (RVsub zero Lw); apply (RVdivs zero Lw); [reflexivity| |reflexivity|apply RVno].
    apply (RVsw false true); [apply RVno|apply sw_h].
  Qed.
  Lemma sw_elements (x v : V3 T) (mu rmin : T) :
    vector_norm (angular_momentum (sw x) (sw v)) = vector_norm (angular_momentum x v) /\
    vector_norm (eccentricity_vector (sw x) (sw v) mu) = vector_norm (eccentricity_vector x v mu) /\
    rp_islower_rmin rmin (sw x) (sw v) mu = rp_islower_rmin rmin x v mu.
  Proof using Lw AC SA ZN.
    pose proof (Rnorm zero Lw _ _ _ _ (sw_h x v)) as E1. pose proof (Rnorm zero Lw _ _ _ _ (sw_ecc x v mu)) as E2. rewrite (sw_norm AC) in E1, E2.
    split; [exact E1|split; [exact E2|]]. unfold rp_islower_rmin. cbv zeta. now rewrite E1, E2.
  Qed.
  Lemma sw_checks (r1 v1 r2 : V3 T) (mu : T) :
    is_short_way (sw r1) (sw v1) (sw r2) = is_short_way r1 v1 r2 /\ pass_perigee (sw r1) (sw v1) (sw r2) mu = pass_perigee r1 v1 r2 mu.
  Proof using Lw AC SA ZN.
    pose proof (sw_ecc r1 v1 mu) as HE.
    assert (K : forall a a' b b' p p' q q', RV zero false no (sw a) a' -> RV zero false no (sw b) b' -> RV zero false no (sw p) p' -> RV zero false no (sw q) q' ->
       n_gt (vinner (vcross a' b') (vcross p' q')) (#0) = n_gt (vinner (vcross a b) (vcross p q)) (#0)).
    { intros a a' b b' p p' q q' A B P Q. rewrite <- (sw_inner AC (vcross a b)). unfold n_gt. apply (sl_lt _ Lw); [left; reflexivity|].
      eapply (Rinner zero Lw true true); [exact (RVsw false false _ _ _ _ A B)|exact (RVsw false false _ _ _ _ P Q)|reflexivity]. }
    assert (S : is_short_way (sw r1) (sw v1) (sw r2) = is_short_way r1 v1 r2) by (apply K; apply RVno).
    split; [exact S|]. unfold pass_perigee. cbv zeta. rewrite S. f_equal. f_equal; apply K; first [apply RVno|exact HE].
  Qed.
End Signed.
