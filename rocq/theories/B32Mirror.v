(** * B32Mirror: mirrored and time-reversed runs in single precision (proofs for C96 and C97) *)
From Coq Require Import ZArith Reals Lra Lia Bool List String.
From Coquelicot Require Import Coquelicot.
From Flocq Require Import Core IEEE754.BinarySingleNaN.
From Verif Require Import Num NumB32 NumR Spec SpecFl SpecFl32 SpecFlV SpecFlStm RLib B32Lib B32Acc B32An.
From Verif Require Import OrbIntegrals Uniformulas Lagrange KepEqu LoopFacts StateTrans PropKepler PathCheck Gravity B32Zero.
From Verif Require Import SpecMirror SgnCalc SgnCalc2 SgnCalc3 SgnFloat.
Import ListNotations.
Local Open Scope R_scope.

Lemma rel_same (s : bool) (a b : b32) : @FR 24 128 s a b -> fsame (fflip s a) b.
Proof. intros [->|[[u ->] [w ->]]]; [left; reflexivity|right]. exists (if s then negb u else u), w. split; [destruct s; reflexivity|reflexivity]. Qed.
Section Lib.
  Variable L : libm.
  Let N : Num b32 := Num_B32 L.
  Let Lw := laws32 L.
  Notation z32 := (fz 24 128).
  Lemma rv_same (s : V3 bool) (a b : V3 b32) : @RV _ N z32 false s a b -> vsame (reflect s a) b.
  Proof using. intros (A & B & C). rewrite !xorb_false_l in *. repeat split; apply rel_same; assumption. Qed.
  Lemma rv_neg (a b : V3 b32) : @RV _ N z32 true (mk3 false false false) a b -> vsame (@vneg _ N a) b.
  Proof using. intros (A & B & C). repeat split; [exact (rel_same true _ _ A)|exact (rel_same true _ _ B)|exact (rel_same true _ _ C)]. Qed.
  Lemma rm_same (c : bool) (s : V3 bool) (A B : M3 b32) : @RM _ N z32 c s A B -> msame (mreflect c s A) B.
  Proof using.
    intros ((A0 & A1 & A2) & (B0 & B1 & B2) & (C0 & C1 & C2)). unfold msame, vsame, mreflect; cbn [c0 c1 c2].
    rewrite <- !xorb_assoc. repeat split; apply rel_same; assumption.
  Qed.
  Lemma flip_reflect (s : V3 bool) (a : V3 b32) : reflect s a = @vflip _ N false s a.
  Proof using. unfold reflect, vflip. rewrite !xorb_false_l. reflexivity. Qed.
  Lemma flip_both (a : V3 b32) : @vneg _ N a = @vflip _ N true (mk3 false false false) a. Proof using. reflexivity. Qed.

  Lemma reflect_none (a : V3 b32) : reflect (mk3 false false false) a = a. Proof using. destruct a; reflexivity. Qed.

  Lemma row_reversed (p q : V3 b32 * V3 b32) :
    @RV _ N z32 false (mk3 false false false) (fst p) (fst q) /\ @RV _ N z32 true (mk3 false false false) (snd p) (snd q) ->
    vsame (fst p) (fst q) /\ vsame (@vneg _ N (snd p)) (snd q).
  Proof using.
    intros [A B]. split; [|apply rv_neg; exact B]. apply (rv_same (mk3 false false false)) in A. rewrite reflect_none in A. exact A.
  Qed.

  (** ** mirrored *)
  Lemma kepler_mirror (s : V3 bool) (ts : list b32) (x v : V3 b32) (mu : b32) :
    Forall2 (fun p q => vsame (reflect s (fst p)) (fst q) /\ vsame (reflect s (snd p)) (snd q))
      (@kepler _ N ts x v mu) (@kepler _ N ts (reflect s x) (reflect s v) mu).
  Proof using.
    rewrite !(@kepler_map _ N), !flip_reflect. induction ts as [|t ts IH]; constructor; [|exact IH].
    destruct (kepler1_mirror z32 Lw s t x v mu) as [A B]. split; apply rv_same; assumption.
  Qed.
  Lemma dxdx0_mirrored (s : V3 bool) (r v r0 v0 : V3 b32) (t mu : b32) :
    let M := @dxdx0 _ N r v r0 v0 t mu in let M' := @dxdx0 _ N (reflect s r) (reflect s v) (reflect s r0) (reflect s v0) t mu in
    msame (mreflect false s (b_rr M)) (b_rr M') /\ msame (mreflect false s (b_rv M)) (b_rv M') /\
    msame (mreflect false s (b_vr M)) (b_vr M') /\ msame (mreflect false s (b_vv M)) (b_vv M').
  Proof using.
    cbv zeta. rewrite !flip_reflect. destruct (dxdx0_mirror z32 Lw s r v r0 v0 t mu) as (A & B & C & D).
    repeat split; (apply rm_same; assumption).
  Qed.
  Lemma elements_mirror (s : V3 bool) (x v : V3 b32) (mu rmin : b32) :
    @vector_norm _ N (reflect s x) = @vector_norm _ N x /\ @vector_norm _ N (reflect s v) = @vector_norm _ N v /\
    @vector_norm _ N (@angular_momentum _ N (reflect s x) (reflect s v)) = @vector_norm _ N (@angular_momentum _ N x v) /\
    @vector_norm _ N (@eccentricity_vector _ N (reflect s x) (reflect s v) mu) = @vector_norm _ N (@eccentricity_vector _ N x v mu) /\
    vsame (reflect s (@eccentricity_vector _ N x v mu)) (@eccentricity_vector _ N (reflect s x) (reflect s v) mu) /\
    @sigma_fn _ N (reflect s x) (reflect s v) mu = @sigma_fn _ N x v mu /\
    @rp_islower_rmin _ N rmin (reflect s x) (reflect s v) mu = @rp_islower_rmin _ N rmin x v mu.
  Proof using.
    rewrite !flip_reflect. pose proof (@RVflip _ N z32 false s x) as X. pose proof (@RVflip _ N z32 false s v) as V.
    destruct (elements_same z32 Lw false s _ _ _ _ X V mu rmin) as (E1 & E2 & E3 & E4 & E5).
    repeat match goal with |- _ /\ _ => split end; try assumption.
    - rewrite <- flip_reflect. apply rv_same. exact (ecc_rel z32 Lw false s _ _ _ _ X V mu).
    - apply (sigma_mirror z32 Lw).
  Qed.
  Lemma checks_mirror (s : V3 bool) (r1 v1 r2 : V3 b32) (mu : b32) :
    @is_short_way _ N (reflect s r1) (reflect s v1) (reflect s r2) = @is_short_way _ N r1 v1 r2 /\
    @pass_perigee _ N (reflect s r1) (reflect s v1) (reflect s r2) mu = @pass_perigee _ N r1 v1 r2 mu.
  Proof using. rewrite !flip_reflect. apply (checks_same z32 Lw s); apply RVflip. Qed.
  Lemma res_rv (s k : V3 bool) (c : bool) (a b : res (V3 b32)) : (forall u w, @RV _ N z32 c k u w -> vsame (reflect s u) w) ->
    same_res (@RV _ N z32 c k) a b -> match a, b with Ok u, Ok w => vsame (reflect s u) w | Raise e, Raise e' => e = e' | _, _ => False end.
  Proof using. intros H R. destruct a, b; cbn [same_res] in R; try contradiction; auto. Qed.
  Lemma gravity_mirror (s : V3 bool) (x : V3 b32) (rest rest' : list b32) (t t' : b32) (args : list (string * b32)) :
    let st := fun (a : V3 b32) (l : list b32) => c0 a :: c1 a :: c2 a :: l in
    let same := fun (k : V3 bool) (a b : res (V3 b32)) => match a, b with Ok u, Ok w => vsame (reflect k u) w | Raise e, Raise e' => e = e' | _, _ => False end in
    same s (@point_mass_grav _ N t (st x rest) args) (@point_mass_grav _ N t' (st (reflect s x) rest') args) /\
    same s (@j2_acc _ N t (st x rest) args) (@j2_acc _ N t' (st (reflect s x) rest') args) /\
    same (mk3 (xorb (c2 s) (c0 s)) (xorb (c2 s) (c1 s)) false) (@j3_acc _ N t (st x rest) args) (@j3_acc _ N t' (st (reflect s x) rest') args) /\
    same s (@j4_acc _ N t (st x rest) args) (@j4_acc _ N t' (st (reflect s x) rest') args) /\
    @radius_islow _ N t' (st (reflect s x) rest') args = @radius_islow _ N t (st x rest) args.
  Proof using.
    cbv zeta. rewrite !flip_reflect. split; [|split; [|split; [|split]]].
    - apply (res_rv s s false); [apply rv_same|apply (pm_mirror z32 Lw)].
    - apply (res_rv s s false); [apply rv_same|apply (j2_mirror z32 Lw)].
    - apply (res_rv _ s (c2 s)); [|apply (j3_mirror z32 Lw)]. intros u w (A & B & C). rewrite xorb_nilpotent in C.
      repeat split; [exact (rel_same _ _ _ A)|exact (rel_same _ _ _ B)|exact (rel_same false _ _ C)].
    - apply (res_rv s s false); [apply rv_same|apply (j4_mirror z32 Lw)].
    - apply (radius_mirror z32 Lw).
  Qed.

  (** ** reversed *)
  Hypothesis Osin : forall a, m_sin L (Bopp a) = Bopp (m_sin L a).
  Hypothesis Ocos : forall a, m_cos L (Bopp a) = m_cos L a.
  Hypothesis Osinh : forall a, m_sinh L (Bopp a) = Bopp (m_sinh L a).
  Hypothesis Ocosh : forall a, m_cosh L (Bopp a) = m_cosh L a.
  Hypothesis Zsin : forall s, m_sin L (B754_zero s) = B754_zero s.
  Hypothesis Zsinh : forall s, m_sinh L (B754_zero s) = B754_zero s.
  Lemma even_zero (f : b32 -> b32) (E : forall a, f (Bopp a) = f a) (s t : bool) : f (B754_zero s) = f (B754_zero t).
  Proof using. destruct s, t; try reflexivity; [exact (E (B754_zero false))|symmetry; exact (E (B754_zero false))]. Qed.
  Lemma sym : @sym_libm _ N z32.
  Proof using Osin Ocos Osinh Ocosh Zsin Zsinh.
    constructor; intros a a' [->|[[s ->] [t ->]]].
    - apply Ocos.
    - apply (even_zero _ Ocos).
    - apply Ocosh.
    - apply (even_zero _ Ocosh).
    - left. apply Osin.
    - right. split; [exists s; apply Zsin|exists t; apply Zsin].
    - left. apply Osinh.
    - right. split; [exists s; apply Zsinh|exists t; apply Zsinh].
  Qed.
  Lemma dxdx0_reversed (r v r0 v0 : V3 b32) (t mu : b32) : let k := mk3 false false false in
    let M := @dxdx0 _ N r v r0 v0 t mu in let M' := @dxdx0 _ N r (@vneg _ N v) r0 (@vneg _ N v0) (Bopp t) mu in
    msame (b_rr M) (b_rr M') /\ msame (mreflect true k (b_rv M)) (b_rv M') /\
    msame (mreflect true k (b_vr M)) (b_vr M') /\ msame (b_vv M) (b_vv M').
  Proof using Osin Ocos Osinh Ocosh Zsin Zsinh.
    cbv zeta. set (k := mk3 false false false).
    assert (E : forall a : V3 b32, @vflip _ N false k a = a) by (intros [? ? ?]; reflexivity).
    assert (EM : forall A : M3 b32, mreflect false k A = A) by (intros [[? ? ?] [? ? ?] [? ? ?]]; reflexivity).
    destruct (dxdx0_reverse z32 Lw sym k r v r0 v0 t mu) as (A & B & C & D). cbv zeta in A, B, C, D. rewrite !E in A, B, C, D.
    split; [|split; [|split]].
    - apply (rm_same false k) in A. rewrite EM in A. exact A.
    - apply rm_same. exact B.
    - apply rm_same. exact C.
    - apply (rm_same false k) in D. rewrite EM in D. exact D.
  Qed.

  Variables (x v : V3 b32) (mu : b32).
  Hypotheses (Gx : good32v 17 x) (Gv : good32v 8 v) (Gm : good32 20 mu) (Pm : 0 < B2R mu).
  Hypotheses (Nx : real32 x <> vzero).
  Let r0 := @vector_norm _ N x.
  Let al := @alpha_of _ N r0 (@vector_norm _ N v) mu.
  Lemma fz_nz (a : b32) : z32 a -> nz a -> False. Proof using. intros [s ->] H. exact H. Qed.
  (** a factor of at least one half keeps [r0] away from zero *)
  Lemma big_nz (c : b32) : z32 (b32_mul r0 c) -> is_finite c = true /\ Rabs (B2R c) < / 2.
  Proof using Gx Nx v mu.
    intros H. destruct (r0_ok L x Gx Nx) as [[F B] [W Nr]]. fold N r0 in F, B, W, Nr.
    assert (Fc : is_finite c = true).
    { destruct c as [s|s| |s m e Q]; try reflexivity; exfalso; [exact (fz_nz _ H (mul_inf r0 (B754_infinity s) F Nr I eq_refl))|].
      destruct H as [w H]. destruct r0; discriminate H. }
    split; [exact Fc|]. apply Rnot_le_lt. intros G.
    destruct (mul_nz (17 + 1 + 1) r0 c F Fc ltac:(lia)) as [K _]; [|exact (fz_nz _ H K)].
    rewrite Rabs_mult, <- P2_add, Rinv_mult by lia. apply Rmult_le_compat; [left; apply Rinv_0_lt_compat, P2; lia|left; apply Rinv_0_lt_compat, P2; lia|exact W|].
    change (IZR (2 ^ 1)) with 2. exact G.
  Qed.
  Lemma quot_nz (a b : b32) : is_finite a = true -> / 2 <= Rabs (B2R a) <= 2 -> is_finite b = true -> Rabs (B2R b) = Rabs (B2R al) -> B2R al <> 0 -> nz (b32_div a b).
  Proof using Gx Gv Gm Pm Nx.
    intros Fa Ba Fb Eb Na. pose proof (al_good L x v mu Gx Gv Gm Pm Nx) as G. fold N r0 al in G.
    pose proof (al_low al G Na) as W. pose proof (al_bd al G) as [_ U]. unfold lw in W. rewrite <- Eb in W, U.
    pose proof (Rinv_0_lt_compat _ (P2 45 ltac:(lia))) as Ip.
    assert (Nb : B2R b <> 0) by (intro Z; rewrite Z, Rabs_R0 in W; lra). assert (Pb : 0 < Rabs (B2R b)) by lra.
    assert (Q : Rabs (B2R a / B2R b) = Rabs (B2R a) * / Rabs (B2R b)) by (unfold Rdefinitions.Rdiv; rewrite Rabs_mult, Rabs_inv; reflexivity).
    destruct (div_exact a b Fa Nb) as [V F].
    { rewrite Q. replace (IZR (2 ^ 127)) with (2 * IZR (2 ^ (127 - 1))) by (change 2 with (IZR (2 ^ 1)) at 1; rewrite P2_add by lia; f_equal; lia).
      apply Rmult_le_compat; [apply Rabs_pos|left; apply Rinv_0_lt_compat; exact Pb|lra|].
      apply Rle_trans with (/ / IZR (2 ^ 45)); [apply Rinv_le_contravar; [exact Ip|exact W]|]. rewrite Rinv_inv. apply P2_le. lia. }
    apply (lw_nz (1 + 45) _ F); [|lia]. unfold lw. rewrite V. apply rnd_low; [lia|]. rewrite Q, <- P2_add, Rinv_mult by lia. change (IZR (2 ^ 1)) with 2.
    apply Rmult_le_compat; [lra|lra|lra|]. apply Rinv_le_contravar; [exact Pb|exact U].
  Qed.
  Lemma one_minus_nz (c : b32) : is_finite c = true -> Rabs (B2R c) < / 2 ->
    is_finite (b32_sub (b32_Z 1) c) = true /\ / 2 <= Rabs (B2R (b32_sub (b32_Z 1) c)) <= 2 /\
    is_finite (b32_sub c (b32_Z 1)) = true /\ / 2 <= Rabs (B2R (b32_sub c (b32_Z 1))) <= 2.
  Proof using.
    intros F B. destruct vl_one as [F1 V1]. apply Rabs_lt_between in B.
    assert (P : 2 <= IZR (2 ^ 127)) by (apply (P2_le 1); lia).
    destruct (sub_exact (b32_Z 1) c F1 F) as [Va Fa]; [rewrite V1; apply Rabs_le; lra|].
    destruct (sub_exact c (b32_Z 1) F F1) as [Vb Fb]; [rewrite V1; apply Rabs_le; lra|].
    rewrite Va, Vb, V1. split; [exact Fa|]. split; [|split; [exact Fb|]].
    - split; [apply (rnd_low 1); [lia|]; change (IZR (2 ^ 1)) with 2; rewrite Rabs_pos_eq; lra|apply (rnd_up 1); [lia|]; apply Rabs_le; change (IZR (2 ^ 1)) with 2; lra].
    - split; [apply (rnd_low 1); [lia|]; change (IZR (2 ^ 1)) with 2; rewrite Rabs_left; lra|apply (rnd_up 1); [lia|]; apply Rabs_le; change (IZR (2 ^ 1)) with 2; lra].
  Qed.
  Lemma never_both (chi : b32) : ~ (z32 (@n_mul _ N r0 (@ufunc0 _ N chi al)) /\ z32 (@ufunc2 _ N chi al)).
  Proof using Gx Gv Gm Pm Nx.
    intros [Z0 Z2]. destruct (big_nz _ Z0) as [F B]. pose proof (al_good L x v mu Gx Gv Gm Pm Nx) as G. fold N r0 al in G.
    assert (Fal : is_finite al = true) by exact (proj1 G).
    unfold ufunc0 in F, B. unfold ufunc2 in Z2.
    destruct (sign_cases L al G) as [[E P]|[[E [E' P]]|[E [E' P]]]]; fold N in E; rewrite E in F, B, Z2; cbn [where_] in F, B, Z2.
    - destruct (one_minus_nz _ F B) as (Fd & Bd & _). exact (fz_nz _ Z2 (quot_nz _ _ Fd Bd Fal eq_refl ltac:(lra))).
    - fold N in E'. rewrite E' in F, B, Z2. cbn [where_] in F, B, Z2. destruct (one_minus_nz _ F B) as (_ & _ & Fd & Bd).
      change (0 < B2R (Bopp al)) in P. rewrite B2R_Bopp in P.
      refine (fz_nz _ Z2 (quot_nz _ (Bopp al) Fd Bd _ _ _)); [rewrite is_finite_Bopp; exact Fal|rewrite B2R_Bopp; apply Rabs_Ropp|lra].
    - fold N in E'. rewrite E' in F, B. cbn [where_] in F, B. destruct vl_one as [_ V1]. change (Rabs (B2R (b32_Z 1)) < / 2) in B. rewrite V1, Rabs_pos_eq in B; lra.
  Qed.
  Lemma kepler_reversed (ts : list b32) :
    Forall2 (fun p q => vsame (fst p) (fst q) /\ vsame (@vneg _ N (snd p)) (snd q))
      (@kepler _ N ts x v mu) (@kepler _ N (map Bopp ts) x (@vneg _ N v) mu).
  Proof using Osin Ocos Osinh Ocosh Zsin Zsinh Gx Gv Gm Pm Nx.
    rewrite !(@kepler_map _ N). induction ts as [|t ts IH]; cbn [map]; constructor; [|exact IH].
    exact (row_reversed _ _ (kepler1_reverse z32 Lw sym (@add_zz _ _ _ _) t x v mu never_both)).
  Qed.
End Lib.
