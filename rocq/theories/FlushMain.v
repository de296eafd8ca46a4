(** * FlushMain: flushing subnormal numbers changes nothing as long as none appears (proofs for C108), for any IEEE format *)
From Coq Require Import ZArith Reals Bool List Lia String.
From Flocq Require Import Core IEEE754.BinarySingleNaN.
From Verif Require Import Num NumF SpecUnits SpecFlush FlushCalc OrbIntegrals RotMat OrbElements Uniformulas Lagrange KepEqu StateTrans PropKepler PathCheck Gravity LoopFacts.
From Verif Require UnitCalc.
Import ListNotations.
Local Open Scope Z_scope.

Section Main.
  Context {prec emax : Z} (Hp : FLX.Prec_gt_0 prec) (Hm : Prec_lt_emax prec emax).
  Notation bf := (binary_float prec emax).
  Context (M : Num bf) (I : UnitCalc.ieee Hp Hm M).
  Notation G := (Num_G M). Notation F := (Num_F M).

  Lemma k0 : 0 <= 0. Proof using. lia. Qed.
  Lemma z0 : 16 * Z.abs 0 + 4 * Z.abs 0 <= 0. Proof using. lia. Qed.
  Lemma z0' : 8 * Z.abs 0 + 4 * Z.abs 0 <= 0. Proof using. lia. Qed.
  Lemma sp (k : Z) (a : bf) : plain a = true -> Rl k (Some a) a. Proof using. now split. Qed.
  Lemma vp (k : Z) (a : V3 bf) : vplain a -> RV k (vsome a) a. Proof using. intros (A & B & C). repeat split; assumption. Qed.
  Lemma fol (k : Z) (g : option bf) (a b : bf) : Rl k g a -> Rl k g b -> agree g a b.
  Proof using. intros A B c ->. destruct A, B. now split. Qed.
  Lemma vfol (k : Z) g (a b : V3 bf) : RV k g a -> RV k g b -> vagree g a b.
  Proof using. intros (A0 & A1 & A2) (B0 & B1 & B2). split; [|split]; now apply (fol k). Qed.
  Lemma mfol (k : Z) g (a b : M3 bf) : RM k g a -> RM k g b -> magree g a b.
  Proof using. intros (A0 & A1 & A2) (B0 & B1 & B2). split; [|split]; now apply (vfol k). Qed.

  Lemma kepler_flush (ts : list bf) (x v : V3 bf) (mu : bf) : plain (@default_tol _ M) = true -> lplain ts -> vplain x -> vplain v -> plain mu = true ->
    Forall2 (fun g p => vagree (fst g) (fst (fst p)) (fst (snd p)) /\ vagree (snd g) (snd (fst p)) (snd (snd p)))
      (@kepler _ G (map Some ts) (vsome x) (vsome v) (Some mu)) (combine (@kepler _ M ts x v mu) (@kepler _ F ts x v mu)).
  Proof using I.
    intros Ft T X V Mu. rewrite !kepler_map, map_map. induction T as [|t ts T _ IH]; [constructor|]. cbn [map combine]. constructor; [|exact IH]. clear IH. cbn [fst snd].
    assert (P : forall fl, let p := @kepler1 _ (N M fl) t x v mu in let g := @kepler1 _ (W M) (Some t) (vsome x) (vsome v) (Some mu) in RV 0 (fst g) (fst p) /\ RV 0 (snd g) (snd p)).
    { intros fl. apply (kepler1_rel Hp Hm M I 0 k0 fl 0 0 z0 (Some t) (Some mu) (vsome x) (vsome v) t mu x v eq_refl Ft); [now apply sp|now apply sp|now apply vp|now apply vp]. }
    destruct (P false) as [A B]. destruct (P true) as [A' B']. split; apply (vfol 0); assumption.
  Qed.
  Lemma solver_flush (dt al r0 s0 mu tol : bf) (n : Z) : lplain [dt; al; r0; s0; mu; tol] ->
    agree (@solve_kepler_uni _ G (Some dt) (Some al) (Some r0) (Some s0) (Some mu) (Some tol) n) (@solve_kepler_uni _ M dt al r0 s0 mu tol n) (@solve_kepler_uni _ F dt al r0 s0 mu tol n).
  Proof using I.
    intros H. repeat (inversion H as [|? ? ? H']; subst; clear H; rename H' into H).
    assert (P : forall fl, Rl 0 (@solve_kepler_uni _ G (Some dt) (Some al) (Some r0) (Some s0) (Some mu) (Some tol) n) (@solve_kepler_uni _ (N M fl) dt al r0 s0 mu tol n)).
    { intros fl. apply (solve_rel Hp Hm M I 0 k0 fl 0 0 z0); try discriminate; now apply sp. }
    apply (fol 0); [apply (P false)|apply (P true)].
  Qed.
  Lemma dxdx0_flush (r v x w : V3 bf) (t mu : bf) : vplain r -> vplain v -> vplain x -> vplain w -> plain t = true -> plain mu = true ->
    let g := @dxdx0 _ G (vsome r) (vsome v) (vsome x) (vsome w) (Some t) (Some mu) in let A := @dxdx0 _ M r v x w t mu in let B := @dxdx0 _ F r v x w t mu in
    magree (b_rr g) (b_rr A) (b_rr B) /\ magree (b_rv g) (b_rv A) (b_rv B) /\ magree (b_vr g) (b_vr A) (b_vr B) /\ magree (b_vv g) (b_vv A) (b_vv B).
  Proof using I.
    intros HR HV HX HW HT HM g A B.
    destruct (dxdx0_rel Hp Hm M I 0 k0 false 0 0 z0 (vsome r) (vsome v) (vsome x) (vsome w) (Some t) (Some mu) r v x w t mu) as (A1 & A2 & A3 & A4); [now apply vp..|now apply sp|now apply sp|].
    destruct (dxdx0_rel Hp Hm M I 0 k0 true 0 0 z0 (vsome r) (vsome v) (vsome x) (vsome w) (Some t) (Some mu) r v x w t mu) as (B1 & B2 & B3 & B4); [now apply vp..|now apply sp|now apply sp|].
    split; [|split; [|split]]; eapply mfol; eassumption.
  Qed.
  Lemma rv2coe_flush (x v : V3 bf) (mu : bf) : vplain x -> vplain v -> plain mu = true ->
    let g := @rv2coe _ G (vsome x) (vsome v) (Some mu) in let A := @rv2coe _ M x v mu in let B := @rv2coe _ F x v mu in
    agree (coe_p g) (coe_p A) (coe_p B) /\ agree (coe_e g) (coe_e A) (coe_e B) /\ agree (coe_incl g) (coe_incl A) (coe_incl B) /\
    agree (coe_raan g) (coe_raan A) (coe_raan B) /\ agree (coe_argp g) (coe_argp A) (coe_argp B) /\ agree (coe_f g) (coe_f A) (coe_f B).
  Proof using I.
    intros X V Mu g A B.
    destruct (rv2coe_rel Hp Hm M I 0 k0 false 0 0 z0' (vsome x) (vsome v) (Some mu) x v mu (vp _ _ X) (vp _ _ V) (sp _ _ Mu)) as (A1 & A2 & A3 & A4 & A5 & A6).
    destruct (rv2coe_rel Hp Hm M I 0 k0 true 0 0 z0' (vsome x) (vsome v) (Some mu) x v mu (vp _ _ X) (vp _ _ V) (sp _ _ Mu)) as (B1 & B2 & B3 & B4 & B5 & B6).
    repeat match goal with |- _ /\ _ => split end; eapply fol; eassumption.
  Qed.
  Lemma vectors_flush (x v : V3 bf) (mu : bf) : vplain x -> vplain v -> plain mu = true ->
    vagree (@angular_momentum _ G (vsome x) (vsome v)) (@angular_momentum _ M x v) (@angular_momentum _ F x v) /\
    vagree (@eccentricity_vector _ G (vsome x) (vsome v) (Some mu)) (@eccentricity_vector _ M x v mu) (@eccentricity_vector _ F x v mu) /\
    agree (@semimajor_axis _ G (@vector_norm _ G (vsome x)) (@vector_norm _ G (vsome v)) (Some mu))
      (@semimajor_axis _ M (@vector_norm _ M x) (@vector_norm _ M v) mu) (@semimajor_axis _ F (@vector_norm _ F x) (@vector_norm _ F v) mu).
  Proof using I.
    intros X V Mu. pose proof (fun k => vp k _ X) as X0. pose proof (fun k => vp k _ V) as V0. pose proof (fun k => sp k _ Mu) as M0.
    split; [|split].
    - eapply vfol; [exact (h_rel Hp Hm M I 0 k0 false 0 0 z0' (vsome x) (vsome v) x v (X0 _) (V0 _))|exact (h_rel Hp Hm M I 0 k0 true 0 0 z0' (vsome x) (vsome v) x v (X0 _) (V0 _))].
    - eapply vfol; [exact (ecc_rel Hp Hm M I 0 k0 false 0 0 z0' (vsome x) (vsome v) (Some mu) x v mu (X0 _) (V0 _) (M0 _))|exact (ecc_rel Hp Hm M I 0 k0 true 0 0 z0' (vsome x) (vsome v) (Some mu) x v mu (X0 _) (V0 _) (M0 _))].
    - eapply fol; [exact (axis_rel Hp Hm M I 0 k0 false 0 0 z0' (vsome x) (vsome v) (Some mu) x v mu (X0 _) (V0 _) (M0 _))|exact (axis_rel Hp Hm M I 0 k0 true 0 0 z0' (vsome x) (vsome v) (Some mu) x v mu (X0 _) (V0 _) (M0 _))].
  Qed.
  Lemma coe2rv_flush (p e i ra ap f mu : bf) : lplain [p; e; i; ra; ap; f; mu] ->
    let g := @coe2rv _ G (Some p) (Some e) (Some i) (Some ra) (Some ap) (Some f) (Some mu) in
    let A := @coe2rv _ M p e i ra ap f mu in let B := @coe2rv _ F p e i ra ap f mu in
    vagree (fst g) (fst A) (fst B) /\ vagree (snd g) (snd A) (snd B).
  Proof using I.
    intros H g A B. repeat (inversion H as [|? ? ? H']; subst; clear H; rename H' into H).
    destruct (coe2rv_rel Hp Hm M I 0 k0 false 0 0 z0' (Some p) (Some e) (Some i) (Some ra) (Some ap) (Some f) (Some mu) p e i ra ap f mu) as [A1 A2]; try (now apply sp).
    destruct (coe2rv_rel Hp Hm M I 0 k0 true 0 0 z0' (Some p) (Some e) (Some i) (Some ra) (Some ap) (Some f) (Some mu) p e i ra ap f mu) as [B1 B2]; try (now apply sp).
    split; eapply vfol; eassumption.
  Qed.
  Lemma scalars_flush (a t mu : bf) : lplain [a; t; mu] ->
    agree (@orb_period _ G (Some a) (Some mu)) (@orb_period _ M a mu) (@orb_period _ F a mu) /\
    agree (@mean_anomaly_elps _ G (Some a) (Some t) (Some mu)) (@mean_anomaly_elps _ M a t mu) (@mean_anomaly_elps _ F a t mu) /\
    agree (@mean_anomaly_hypb _ G (Some a) (Some t) (Some mu)) (@mean_anomaly_hypb _ M a t mu) (@mean_anomaly_hypb _ F a t mu).
  Proof using I.
    intros H. repeat (inversion H as [|? ? ? H']; subst; clear H; rename H' into H).
    assert (A0 : forall k, Rl k (Some a) a) by (intros; now apply sp). assert (T0 : forall k, Rl k (Some t) t) by (intros; now apply sp). assert (M0 : forall k, Rl k (Some mu) mu) by (intros; now apply sp).
    pose proof (period_rel Hp Hm M I 0 k0 false 0 0 z0' (Some a) (Some mu) a mu (A0 _) (M0 _)) as P. pose proof (period_rel Hp Hm M I 0 k0 true 0 0 z0' (Some a) (Some mu) a mu (A0 _) (M0 _)) as P'.
    destruct (elps_rel Hp Hm M I 0 k0 false 0 0 z0' (Some a) (Some t) (Some mu) a t mu (A0 _) (T0 _) (M0 _)) as [E E2].
    destruct (elps_rel Hp Hm M I 0 k0 true 0 0 z0' (Some a) (Some t) (Some mu) a t mu (A0 _) (T0 _) (M0 _)) as [E' E2'].
    split; [|split]; eapply fol; eassumption.
  Qed.
  Lemma nmax_flush (rp r1 r2 t mu : bf) : lplain [rp; r1; r2; t; mu] ->
    agree (@nmax_by_periapsis _ G (Some rp) (Some r1) (Some r2) (Some t) (Some mu)) (@nmax_by_periapsis _ M rp r1 r2 t mu) (@nmax_by_periapsis _ F rp r1 r2 t mu).
  Proof using I.
    intros H. repeat (inversion H as [|? ? ? H']; subst; clear H; rename H' into H). eapply fol.
    - apply (nmax_rel Hp Hm M I 0 k0 false 0 0 z0'); now apply sp.
    - apply (nmax_rel Hp Hm M I 0 k0 true 0 0 z0'); now apply sp.
  Qed.
  Lemma path_flush (r1 v1 r2 : V3 bf) (mu rmin : bf) : vplain r1 -> vplain v1 -> vplain r2 -> plain mu = true -> plain rmin = true ->
    let n := G in let x := vsome r1 in let v := vsome v1 in let y := vsome r2 in let e := @eccentricity_vector _ n x v (Some mu) in
    (@vinner _ n (@vcross _ n x v) (@vcross _ n x y) <> None -> @is_short_way _ F r1 v1 r2 = @is_short_way _ M r1 v1 r2) /\
    (@vinner _ n (@vcross _ n x v) (@vcross _ n x y) <> None -> @vinner _ n (@vcross _ n x y) (@vcross _ n x e) <> None -> @vinner _ n (@vcross _ n x y) (@vcross _ n e y) <> None ->
       @pass_perigee _ F r1 v1 r2 mu = @pass_perigee _ M r1 v1 r2 mu) /\
    (@radius_periapsis _ n (@semiparameter _ n (@vector_norm _ n (@angular_momentum _ n x v)) (Some mu)) (@vector_norm _ n e) <> None ->
       @rp_islower_rmin _ F rmin r1 v1 mu = @rp_islower_rmin _ M rmin r1 v1 mu).
  Proof using I.
    intros A B C Mu R n x v y e.
    assert (A0 : forall k, RV k x r1) by (intros; now apply vp). assert (B0 : forall k, RV k v v1) by (intros; now apply vp). assert (C0 : forall k, RV k y r2) by (intros; now apply vp).
    assert (M0 : forall k, Rl k (Some mu) mu) by (intros; now apply sp). assert (R0 : forall k, Rl k (Some rmin) rmin) by (intros; now apply sp).
    split; [|split].
    - intros S. transitivity (@is_short_way _ n x v y); [|symmetry].
      + exact (short_rel Hp Hm M I 0 k0 true 0 0 z0' x v y r1 v1 r2 (A0 _) (B0 _) (C0 _) S).
      + exact (short_rel Hp Hm M I 0 k0 false 0 0 z0' x v y r1 v1 r2 (A0 _) (B0 _) (C0 _) S).
    - intros S1 S2 S3. transitivity (@pass_perigee _ n x v y (Some mu)); [|symmetry].
      + exact (perigee_rel Hp Hm M I 0 k0 true 0 0 z0' x v y (Some mu) r1 v1 r2 mu (A0 _) (B0 _) (C0 _) (M0 _) S1 S2 S3).
      + exact (perigee_rel Hp Hm M I 0 k0 false 0 0 z0' x v y (Some mu) r1 v1 r2 mu (A0 _) (B0 _) (C0 _) (M0 _) S1 S2 S3).
    - intros S. transitivity (@rp_islower_rmin _ n (Some rmin) x v (Some mu)); [|symmetry].
      + exact (rpmin_rel Hp Hm M I 0 k0 true 0 0 z0' x v (Some mu) (Some rmin) r1 v1 mu rmin (A0 _) (B0 _) (M0 _) (R0 _) ltac:(discriminate) S).
      + exact (rpmin_rel Hp Hm M I 0 k0 false 0 0 z0' x v (Some mu) (Some rmin) r1 v1 mu rmin (A0 _) (B0 _) (M0 _) (R0 _) ltac:(discriminate) S).
  Qed.
  Lemma RD_some (d : list (string * bf)) : dplain d -> RD 0 0 (dsome d) d.
  Proof using. intros H. induction H as [|p d S _ IH]; constructor; [now split|exact IH]. Qed.
  Lemma RX_some (x : list bf) : lplain (firstn 3 x) -> RX 0 (map Some x) x.
  Proof using. intros H. unfold RX. rewrite map_length, firstn_map. split; [reflexivity|]. induction H; cbn [map]; constructor; [now apply sp|assumption]. Qed.
  Lemma rfol {g A : Type} (Q : g -> A -> Prop) (P : g -> A -> A -> Prop) u a b : (forall u a b, Q u a -> Q u b -> P u a b) -> Rres Q u a -> Rres Q u b -> rfollows P u a b.
  Proof using. intros H A0 B. destruct u, a, b; cbn in *; try contradiction; auto. Qed.
  Lemma forces_flush (t : bf) (x : list bf) (d : list (string * bf)) : lplain (firstn 3 x) -> dplain d ->
    rfollows vagree (@point_mass_grav _ G (Some t) (map Some x) (dsome d)) (@point_mass_grav _ M t x d) (@point_mass_grav _ F t x d) /\
    rfollows vagree (@j2_acc _ G (Some t) (map Some x) (dsome d)) (@j2_acc _ M t x d) (@j2_acc _ F t x d) /\
    rfollows vagree (@j3_acc _ G (Some t) (map Some x) (dsome d)) (@j3_acc _ M t x d) (@j3_acc _ F t x d) /\
    rfollows vagree (@j4_acc _ G (Some t) (map Some x) (dsome d)) (@j4_acc _ M t x d) (@j4_acc _ F t x d) /\
    rfollows agree (@radius_islow _ G (Some t) (map Some x) (dsome d)) (@radius_islow _ M t x d) (@radius_islow _ F t x d).
  Proof using I.
    intros X D. pose proof (RX_some _ X) as X0. pose proof (RD_some _ D) as D0.
    split; [|split; [|split; [|split]]].
    - eapply rfol; [apply vfol|apply (pm_rel Hp Hm M I 0 k0 false 0 0 z0'); eassumption|apply (pm_rel Hp Hm M I 0 k0 true 0 0 z0'); eassumption].
    - eapply rfol; [apply vfol|apply (j2_rel Hp Hm M I 0 k0 false 0 0 z0'); eassumption|apply (j2_rel Hp Hm M I 0 k0 true 0 0 z0'); eassumption].
    - eapply rfol; [apply vfol|apply (j3_rel Hp Hm M I 0 k0 false 0 0 z0'); eassumption|apply (j3_rel Hp Hm M I 0 k0 true 0 0 z0'); eassumption].
    - eapply rfol; [apply vfol|apply (j4_rel Hp Hm M I 0 k0 false 0 0 z0'); eassumption|apply (j4_rel Hp Hm M I 0 k0 true 0 0 z0'); eassumption].
    - eapply rfol; [apply fol|apply (low_rel Hp Hm M I 0 k0 false 0 0 z0'); eassumption|apply (low_rel Hp Hm M I 0 k0 true 0 0 z0'); eassumption].
  Qed.
End Main.
