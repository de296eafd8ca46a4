(** * SwapFloat: exchanged axes in double and in single precision (proofs for C107) *)
From Coq Require Import ZArith Reals Lia Bool List String.
From Flocq Require Import Core IEEE754.BinarySingleNaN.
From Verif Require Import Num NumB32 NumB64 OrbIntegrals Uniformulas KepEqu StateTrans PropKepler PathCheck Gravity.
From Verif Require Import SpecMirror SpecSwap SgnCalc SgnCalc2 SgnCalc3 SgnFloat SgnSwap.
From Verif Require B32Mirror B64Mirror.
Import ListNotations.

Lemma plus_comm (prec emax : Z) {Hp : Prec_gt_0 prec} {Hm : Prec_lt_emax prec emax} (a b : binary_float prec emax) : Bplus mode_NE a b = Bplus mode_NE b a.
Proof.
  destruct a as [[]|[]| |sa ma ea Ha], b as [[]|[]| |sb mb eb Hb]; try reflexivity.
  cbn [Bplus]. rewrite (Z.min_comm eb ea). cbv zeta. f_equal. unfold Fplus_naive. apply Z.add_comm.
Qed.

(** ** double precision *)
Section S64.
  Variable L : libm64.
  Let N : Num b64 := Num_B64 L.
  Let Lw := laws64 L.
  Notation zz := (fz 53 1024).
  Let AC : forall a b : b64, @n_add _ N a b = @n_add _ N b a. Proof using. intros a b. apply plus_comm. Qed.
  Let SA : forall a b : b64, @n_sub _ N a b = @n_add _ N a (@n_neg _ N b). Proof using. intros a b. apply sub_add. Qed.
  Let ZN : forall a : b64, zz a -> zz (@n_neg _ N a). Proof using. intros a [s ->]. eexists. reflexivity. Qed.
  Lemma kepler_exchange64 (ts : list b64) (x v : V3 b64) (mu : b64) :
    @kepler _ N ts (exchange x) (exchange v) mu = map (fun p => (exchange (fst p), exchange (snd p))) (@kepler _ N ts x v mu).
  Proof using AC. apply (sw_kepler AC). Qed.
  Lemma dxdx0_exchange64 (r v r0 v0 : V3 b64) (t mu : b64) :
    let M := @dxdx0 _ N r v r0 v0 t mu in let M' := @dxdx0 _ N (exchange r) (exchange v) (exchange r0) (exchange v0) t mu in
    b_rr M' = mexchange (b_rr M) /\ b_rv M' = mexchange (b_rv M) /\ b_vr M' = mexchange (b_vr M) /\ b_vv M' = mexchange (b_vv M).
  Proof using AC. apply (sw_dxdx0 AC). Qed.
  Lemma rv_no64 (c : bool) (a b : V3 b64) : @RV _ N zz c (mk3 false false false) a b -> vsame (mk3 (fflip c (c0 a)) (fflip c (c1 a)) (fflip c (c2 a))) b.
  Proof using. intros (A & B & C). cbn [c0 c1 c2] in *. rewrite !xorb_false_r in *. repeat split; apply B64Mirror.rel_same; assumption. Qed.
  Lemma elements_exchange64 (x v : V3 b64) (mu rmin : b64) :
    @vector_norm _ N (exchange x) = @vector_norm _ N x /\ @sigma_fn _ N (exchange x) (exchange v) mu = @sigma_fn _ N x v mu /\
    (let h := @angular_momentum _ N x v in let h' := @angular_momentum _ N (exchange x) (exchange v) in
     vsame (exchange (mk3 (Bopp (c0 h)) (Bopp (c1 h)) (Bopp (c2 h)))) h' /\ @vector_norm _ N h' = @vector_norm _ N h) /\
    (let e := @eccentricity_vector _ N x v mu in let e' := @eccentricity_vector _ N (exchange x) (exchange v) mu in
     vsame (exchange e) e' /\ @vector_norm _ N e' = @vector_norm _ N e) /\
    @rp_islower_rmin _ N rmin (exchange x) (exchange v) mu = @rp_islower_rmin _ N rmin x v mu.
  Proof using AC SA ZN.
    destruct (sw_elements zz Lw AC SA ZN x v mu rmin) as (E1 & E2 & E3). cbv zeta.
    split; [apply (sw_norm AC)|split; [apply (sw_sigma AC)|split; [split; [|exact E1]|split; [split; [|exact E2]|exact E3]]]].
    - exact (rv_no64 true _ _ (sw_h zz Lw AC SA ZN x v)).
    - exact (rv_no64 false _ _ (sw_ecc zz Lw AC SA ZN x v mu)).
  Qed.
  Lemma checks_exchange64 (r1 v1 r2 : V3 b64) (mu : b64) :
    @is_short_way _ N (exchange r1) (exchange v1) (exchange r2) = @is_short_way _ N r1 v1 r2 /\
    @pass_perigee _ N (exchange r1) (exchange v1) (exchange r2) mu = @pass_perigee _ N r1 v1 r2 mu.
  Proof using AC SA ZN. apply (sw_checks zz Lw AC SA ZN). Qed.
  Lemma gravity_exchange64 (x : V3 b64) (rest rest' : list b64) (t t' : b64) (args : list (string * b64)) :
    let st := fun (a : V3 b64) (l : list b64) => c0 a :: c1 a :: c2 a :: l in
    let ex := fun a : res (V3 b64) => match a with Ok u => Ok (exchange u) | Raise e => Raise e end in
    @point_mass_grav _ N t' (st (exchange x) rest') args = ex (@point_mass_grav _ N t (st x rest) args) /\
    @j2_acc _ N t' (st (exchange x) rest') args = ex (@j2_acc _ N t (st x rest) args) /\
    @j3_acc _ N t' (st (exchange x) rest') args = ex (@j3_acc _ N t (st x rest) args) /\
    @j4_acc _ N t' (st (exchange x) rest') args = ex (@j4_acc _ N t (st x rest) args) /\
    @radius_islow _ N t' (st (exchange x) rest') args = @radius_islow _ N t (st x rest) args.
  Proof using AC. cbv zeta. split; [apply (pm_sw AC)|split; [apply (j2_sw AC)|split; [apply (j3_sw AC)|split; [apply (j4_sw AC)|apply (radius_sw AC)]]]]. Qed.
  (** a quarter turn about z is a reflection and an exchange *)
  Lemma kepler_turn64 (ts : list b64) (x v : V3 b64) (mu : b64) :
    let turn := fun a : V3 b64 => mk3 (Bopp (c1 a)) (c0 a) (c2 a) in
    Forall2 (fun p q => vsame (turn (fst p)) (fst q) /\ vsame (turn (snd p)) (snd q)) (@kepler _ N ts x v mu) (@kepler _ N ts (turn x) (turn v) mu).
  Proof using AC.
    intros turn. pose proof (B64Mirror.kepler_mirror L (mk3 true false false) ts (exchange x) (exchange v) mu) as H. fold N in H.
    rewrite kepler_exchange64 in H.
    change (reflect (mk3 true false false) (exchange x)) with (turn x) in H. change (reflect (mk3 true false false) (exchange v)) with (turn v) in H.
    revert H. generalize (@kepler _ N ts x v mu) (@kepler _ N ts (turn x) (turn v) mu). clear ts. induction l as [|p l IH]; intros l' H.
    - inversion H. constructor.
    - cbn [map] in H. inversion H as [|p' q' m m' [A B] H']; subst. constructor; [split; [exact A|exact B]|apply IH; exact H'].
  Qed.
End S64.

(** ** single precision *)
Section S32.
  Variable L : libm.
  Let N : Num b32 := Num_B32 L.
  Let Lw := laws32 L.
  Notation zz := (fz 24 128).
  Let AC : forall a b : b32, @n_add _ N a b = @n_add _ N b a. Proof using. intros a b. apply plus_comm. Qed.
  Let SA : forall a b : b32, @n_sub _ N a b = @n_add _ N a (@n_neg _ N b). Proof using. intros a b. apply sub_add. Qed.
  Let ZN : forall a : b32, zz a -> zz (@n_neg _ N a). Proof using. intros a [s ->]. eexists. reflexivity. Qed.
  Lemma kepler_exchange32 (ts : list b32) (x v : V3 b32) (mu : b32) :
    @kepler _ N ts (exchange x) (exchange v) mu = map (fun p => (exchange (fst p), exchange (snd p))) (@kepler _ N ts x v mu).
  Proof using AC. apply (sw_kepler AC). Qed.
  Lemma dxdx0_exchange32 (r v r0 v0 : V3 b32) (t mu : b32) :
    let M := @dxdx0 _ N r v r0 v0 t mu in let M' := @dxdx0 _ N (exchange r) (exchange v) (exchange r0) (exchange v0) t mu in
    b_rr M' = mexchange (b_rr M) /\ b_rv M' = mexchange (b_rv M) /\ b_vr M' = mexchange (b_vr M) /\ b_vv M' = mexchange (b_vv M).
  Proof using AC. apply (sw_dxdx0 AC). Qed.
  Lemma rv_no32 (c : bool) (a b : V3 b32) : @RV _ N zz c (mk3 false false false) a b -> vsame (mk3 (fflip c (c0 a)) (fflip c (c1 a)) (fflip c (c2 a))) b.
  Proof using. intros (A & B & C). cbn [c0 c1 c2] in *. rewrite !xorb_false_r in *. repeat split; apply B32Mirror.rel_same; assumption. Qed.
  Lemma elements_exchange32 (x v : V3 b32) (mu rmin : b32) :
    @vector_norm _ N (exchange x) = @vector_norm _ N x /\ @sigma_fn _ N (exchange x) (exchange v) mu = @sigma_fn _ N x v mu /\
    (let h := @angular_momentum _ N x v in let h' := @angular_momentum _ N (exchange x) (exchange v) in
     vsame (exchange (mk3 (Bopp (c0 h)) (Bopp (c1 h)) (Bopp (c2 h)))) h' /\ @vector_norm _ N h' = @vector_norm _ N h) /\
    (let e := @eccentricity_vector _ N x v mu in let e' := @eccentricity_vector _ N (exchange x) (exchange v) mu in
     vsame (exchange e) e' /\ @vector_norm _ N e' = @vector_norm _ N e) /\
    @rp_islower_rmin _ N rmin (exchange x) (exchange v) mu = @rp_islower_rmin _ N rmin x v mu.
  Proof using AC SA ZN.
    destruct (sw_elements zz Lw AC SA ZN x v mu rmin) as (E1 & E2 & E3). cbv zeta.
    split; [apply (sw_norm AC)|split; [apply (sw_sigma AC)|split; [split; [|exact E1]|split; [split; [|exact E2]|exact E3]]]].
    - exact (rv_no32 true _ _ (sw_h zz Lw AC SA ZN x v)).
    - exact (rv_no32 false _ _ (sw_ecc zz Lw AC SA ZN x v mu)).
  Qed.
  Lemma checks_exchange32 (r1 v1 r2 : V3 b32) (mu : b32) :
    @is_short_way _ N (exchange r1) (exchange v1) (exchange r2) = @is_short_way _ N r1 v1 r2 /\
    @pass_perigee _ N (exchange r1) (exchange v1) (exchange r2) mu = @pass_perigee _ N r1 v1 r2 mu.
  Proof using AC SA ZN. apply (sw_checks zz Lw AC SA ZN). Qed.
  Lemma gravity_exchange32 (x : V3 b32) (rest rest' : list b32) (t t' : b32) (args : list (string * b32)) :
    let st := fun (a : V3 b32) (l : list b32) => c0 a :: c1 a :: c2 a :: l in
    let ex := fun a : res (V3 b32) => match a with Ok u => Ok (exchange u) | Raise e => Raise e end in
    @point_mass_grav _ N t' (st (exchange x) rest') args = ex (@point_mass_grav _ N t (st x rest) args) /\
    @j2_acc _ N t' (st (exchange x) rest') args = ex (@j2_acc _ N t (st x rest) args) /\
    @j3_acc _ N t' (st (exchange x) rest') args = ex (@j3_acc _ N t (st x rest) args) /\
    @j4_acc _ N t' (st (exchange x) rest') args = ex (@j4_acc _ N t (st x rest) args) /\
    @radius_islow _ N t' (st (exchange x) rest') args = @radius_islow _ N t (st x rest) args.
  Proof using AC. cbv zeta. split; [apply (pm_sw AC)|split; [apply (j2_sw AC)|split; [apply (j3_sw AC)|split; [apply (j4_sw AC)|apply (radius_sw AC)]]]]. Qed.
  (** a quarter turn about z is a reflection and an exchange *)
  Lemma kepler_turn32 (ts : list b32) (x v : V3 b32) (mu : b32) :
    let turn := fun a : V3 b32 => mk3 (Bopp (c1 a)) (c0 a) (c2 a) in
    Forall2 (fun p q => vsame (turn (fst p)) (fst q) /\ vsame (turn (snd p)) (snd q)) (@kepler _ N ts x v mu) (@kepler _ N ts (turn x) (turn v) mu).
  Proof using AC.
    intros turn. pose proof (B32Mirror.kepler_mirror L (mk3 true false false) ts (exchange x) (exchange v) mu) as H. fold N in H.
    rewrite kepler_exchange32 in H.
    change (reflect (mk3 true false false) (exchange x)) with (turn x) in H. change (reflect (mk3 true false false) (exchange v)) with (turn v) in H.
    revert H. generalize (@kepler _ N ts x v mu) (@kepler _ N ts (turn x) (turn v) mu). clear ts. induction l as [|p l IH]; intros l' H.
    - inversion H. constructor.
    - cbn [map] in H. inversion H as [|p' q' m m' [A B] H']; subst. constructor; [split; [exact A|exact B]|apply IH; exact H'].
  Qed.
End S32.
