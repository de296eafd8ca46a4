(** * UnitMain: a change of units by powers of two (proofs for C99 and C100), for any IEEE format *)
From Coq Require Import ZArith Reals Bool List Lia String.
From Flocq Require Import Core IEEE754.BinarySingleNaN.
From Verif Require Import Num NumW SpecUnits UnitFloat UnitCalc OrbIntegrals RotMat OrbElements Uniformulas Lagrange KepEqu StateTrans PropKepler PathCheck Gravity LoopFacts.
Import ListNotations.
Local Open Scope Z_scope.

Section Main.
  Context {prec emax : Z} (Hp : FLX.Prec_gt_0 prec) (Hm : Prec_lt_emax prec emax).
  Notation bf := (binary_float prec emax).
  Context (N : Num bf) (I : ieee Hp Hm N).

  Lemma self (k : Z) (a b : bf) : scaled k a b -> scaled 0 a a. Proof using. intros (F & _). now apply scaled_refl. Qed.
  Lemma vself (k : Z) (a b : V3 bf) : vscaled k a b -> vscaled 0 a a. Proof using. intros (A & B & C). repeat split; eapply self; eassumption. Qed.
  Lemma Rs (k : Z) (a b : bf) : scaled k a b -> Rl k (Some a) b. Proof using. exact (fun H => H). Qed.
  Lemma RVs (k : Z) (a b : V3 bf) : vscaled k a b -> RV k (vsome a) b. Proof using. exact (fun H => H). Qed.
  Lemma fol (k : Z) (g : option bf) (a b : bf) : Rl 0 g a -> Rl k g b -> follows k g a b.
  Proof using. intros A B c ->. split; [now apply scaled_0|exact B]. Qed.
  Lemma vfol (k : Z) g (a b : V3 bf) : RV 0 g a -> RV k g b -> vfollows k g a b.
  Proof using. intros (A0 & A1 & A2) (B0 & B1 & B2). split; [|split]; now apply fol. Qed.
  Lemma mfol (k : Z) g (a b : M3 bf) : RM 0 g a -> RM k g b -> mfollows k g a b.
  Proof using. intros (A0 & A1 & A2) (B0 & B1 & B2). split; [|split]; now apply vfol. Qed.
  Lemma z0 (K : Z) : 0 <= K -> 16 * Z.abs 0 + 4 * Z.abs 0 <= K. Proof using. lia. Qed.
  Lemma z0' (K : Z) : 0 <= K -> 8 * Z.abs 0 + 4 * Z.abs 0 <= K. Proof using. lia. Qed.

  (** ** the propagator *)
  Lemma kepler_units (tau K : Z) (ts ts' : list bf) (x v v' : V3 bf) (mu mu' : bf) : 4 * Z.abs tau <= K -> is_finite (@default_tol _ N) = true ->
    Forall2 (scaled tau) ts ts' -> vscaled 0 x x -> vscaled (- tau) v v' -> scaled (-2 * tau) mu mu' ->
    Forall2 (fun g p => vfollows 0 (fst g) (fst (fst p)) (fst (snd p)) /\ vfollows (- tau) (snd g) (snd (fst p)) (snd (snd p)))
      (@kepler _ (Num_W N K) (map Some ts) (vsome x) (vsome v) (Some mu))
      (combine (@kepler _ N ts x v mu) (@kepler _ N ts' x v' mu')).
  Proof using I.
    intros HK Ft T X V M. rewrite !kepler_map, map_map. assert (K0 : 0 <= K) by lia.
    induction T as [|t t' ts ts' T _ IH]; [constructor|]. cbn [map combine]. constructor; [|exact IH]. clear IH. cbn [fst snd].
    destruct (kepler1_rel Hp Hm N I K K0 0 0 (z0 K K0) (Some t) (Some mu) (vsome x) (vsome v) t mu x v eq_refl Ft) as [A B]; try exact X;
      [exact (self _ _ _ T)|exact (self _ _ _ M)|exact (vself _ _ _ V)|].
    destruct (kepler1_rel Hp Hm N I K K0 0 tau ltac:(lia) (Some t) (Some mu) (vsome x) (vsome v) t' mu' x v' eq_refl Ft) as [A' B']; try exact X;
      [exact T|apply (Rl_eq (-2 * tau)); [exact M|unfold kmu; lia]|exact V|].
    split; apply vfol; assumption.
  Qed.
  (** ** the Newton solver, with the tolerance in the new units too *)
  Lemma solver_units (l tau K : Z) (dt dt' al al' r0 r0' s0 s0' mu mu' tol tol' : bf) (n : Z) : 16 * Z.abs l + 4 * Z.abs tau <= K ->
    scaled tau dt dt' -> scaled (-2 * l) al al' -> scaled (2 * l) r0 r0' -> scaled l s0 s0' -> scaled (6 * l - 2 * tau) mu mu' -> scaled (3 * l) tol tol' ->
    follows l (@solve_kepler_uni _ (Num_W N K) (Some dt) (Some al) (Some r0) (Some s0) (Some mu) (Some tol) n)
      (@solve_kepler_uni _ N dt al r0 s0 mu tol n) (@solve_kepler_uni _ N dt' al' r0' s0' mu' tol' n).
  Proof using I.
    intros HK T A R S M E. assert (K0 : 0 <= K) by lia. apply fol.
    - apply (solve_rel Hp Hm N I K K0 0 0 (z0 K K0)); try discriminate; eapply self; eassumption.
    - apply (solve_rel Hp Hm N I K K0 l tau HK); try discriminate; eassumption.
  Qed.
  (** ** the state transition matrix *)
  Lemma dxdx0_units (l tau K : Z) (r r' v v' x x' w w' : V3 bf) (t t' mu mu' : bf) : 16 * Z.abs l + 4 * Z.abs tau <= K ->
    vscaled (2 * l) r r' -> vscaled (2 * l - tau) v v' -> vscaled (2 * l) x x' -> vscaled (2 * l - tau) w w' -> scaled tau t t' -> scaled (6 * l - 2 * tau) mu mu' ->
    let G := @dxdx0 _ (Num_W N K) (vsome r) (vsome v) (vsome x) (vsome w) (Some t) (Some mu) in
    let A := @dxdx0 _ N r v x w t mu in let B := @dxdx0 _ N r' v' x' w' t' mu' in
    mfollows 0 (b_rr G) (b_rr A) (b_rr B) /\ mfollows tau (b_rv G) (b_rv A) (b_rv B) /\ mfollows (- tau) (b_vr G) (b_vr A) (b_vr B) /\ mfollows 0 (b_vv G) (b_vv A) (b_vv B).
  Proof using I.
    intros HK HR HV HX HW HT HM G A B. assert (K0 : 0 <= K) by lia.
    destruct (dxdx0_rel Hp Hm N I K K0 0 0 (z0 K K0) (vsome r) (vsome v) (vsome x) (vsome w) (Some t) (Some mu) r v x w t mu) as (A1 & A2 & A3 & A4);
      [eapply vself; eassumption..|eapply self; eassumption|eapply self; eassumption|].
    destruct (dxdx0_rel Hp Hm N I K K0 l tau HK (vsome r) (vsome v) (vsome x) (vsome w) (Some t) (Some mu) r' v' x' w' t' mu') as (B1 & B2 & B3 & B4); try eassumption.
    split; [|split; [|split]]; apply mfol; assumption.
  Qed.
  (** ** elements *)
  Lemma rv2coe_units (lam tau K : Z) (x x' v v' : V3 bf) (mu mu' : bf) : 8 * Z.abs lam + 4 * Z.abs tau <= K -> hom2 (@n_arctan2 _ N) ->
    vscaled lam x x' -> vscaled (lam - tau) v v' -> scaled (3 * lam - 2 * tau) mu mu' ->
    let G := @rv2coe _ (Num_W N K) (vsome x) (vsome v) (Some mu) in let A := @rv2coe _ N x v mu in let B := @rv2coe _ N x' v' mu' in
    follows lam (coe_p G) (coe_p A) (coe_p B) /\ follows 0 (coe_e G) (coe_e A) (coe_e B) /\ follows 0 (coe_incl G) (coe_incl A) (coe_incl B) /\
    follows 0 (coe_raan G) (coe_raan A) (coe_raan B) /\ follows 0 (coe_argp G) (coe_argp A) (coe_argp B) /\ follows 0 (coe_f G) (coe_f A) (coe_f B).
  Proof using I.
    intros HK Ha X V M G A B. assert (K0 : 0 <= K) by lia.
    destruct (rv2coe_rel Hp Hm N I K K0 0 0 (z0' K K0) (vsome x) (vsome v) (Some mu) x v mu (vself _ _ _ X) (vself _ _ _ V) (self _ _ _ M) Ha) as (A1 & A2 & A3 & A4 & A5 & A6).
    destruct (rv2coe_rel Hp Hm N I K K0 lam tau HK (vsome x) (vsome v) (Some mu) x' v' mu' X V M Ha) as (B1 & B2 & B3 & B4 & B5 & B6).
    repeat match goal with |- _ /\ _ => split end; apply fol; assumption.
  Qed.
  Lemma vectors_units (lam tau K : Z) (x x' v v' : V3 bf) (mu mu' : bf) : 8 * Z.abs lam + 4 * Z.abs tau <= K ->
    vscaled lam x x' -> vscaled (lam - tau) v v' -> scaled (3 * lam - 2 * tau) mu mu' ->
    vfollows (2 * lam - tau) (@angular_momentum _ (Num_W N K) (vsome x) (vsome v)) (@angular_momentum _ N x v) (@angular_momentum _ N x' v') /\
    vfollows 0 (@eccentricity_vector _ (Num_W N K) (vsome x) (vsome v) (Some mu)) (@eccentricity_vector _ N x v mu) (@eccentricity_vector _ N x' v' mu') /\
    follows lam (@semimajor_axis _ (Num_W N K) (@vector_norm _ (Num_W N K) (vsome x)) (@vector_norm _ (Num_W N K) (vsome v)) (Some mu))
      (@semimajor_axis _ N (@vector_norm _ N x) (@vector_norm _ N v) mu) (@semimajor_axis _ N (@vector_norm _ N x') (@vector_norm _ N v') mu').
  Proof using I.
    intros HK X V M. assert (K0 : 0 <= K) by lia.
    pose proof (vself _ _ _ X) as X0. pose proof (vself _ _ _ V) as V0. pose proof (self _ _ _ M) as M0.
    split; [|split].
    - apply vfol; [exact (h_rel Hp Hm N I K K0 0 0 (z0' K K0) (vsome x) (vsome v) x v X0 V0)|exact (h_rel Hp Hm N I K K0 lam tau HK (vsome x) (vsome v) x' v' X V)].
    - apply vfol; [exact (ecc_rel Hp Hm N I K K0 0 0 (z0' K K0) (vsome x) (vsome v) (Some mu) x v mu X0 V0 M0)|exact (ecc_rel Hp Hm N I K K0 lam tau HK (vsome x) (vsome v) (Some mu) x' v' mu' X V M)].
    - apply fol; [exact (axis_rel Hp Hm N I K K0 0 0 (z0' K K0) (vsome x) (vsome v) (Some mu) x v mu X0 V0 M0)|exact (axis_rel Hp Hm N I K K0 lam tau HK (vsome x) (vsome v) (Some mu) x' v' mu' X V M)].
  Qed.
  Lemma coe2rv_units (lam tau K : Z) (p p' e i ra ap f mu mu' : bf) : 8 * Z.abs lam + 4 * Z.abs tau <= K ->
    scaled lam p p' -> Forall (fun a => is_finite a = true) [e; i; ra; ap; f] -> scaled (3 * lam - 2 * tau) mu mu' ->
    let G := @coe2rv _ (Num_W N K) (Some p) (Some e) (Some i) (Some ra) (Some ap) (Some f) (Some mu) in
    let A := @coe2rv _ N p e i ra ap f mu in let B := @coe2rv _ N p' e i ra ap f mu' in
    vfollows lam (fst G) (fst A) (fst B) /\ vfollows (lam - tau) (snd G) (snd A) (snd B).
  Proof using I.
    intros HK P F M G A B. assert (K0 : 0 <= K) by lia.
    assert (F' : scaled 0 e e /\ scaled 0 i i /\ scaled 0 ra ra /\ scaled 0 ap ap /\ scaled 0 f f) by (repeat (inversion F as [|? ? ? F1]; subst; clear F; rename F1 into F); repeat split; apply scaled_refl; assumption).
    destruct F' as (E & Hi & Ra & Ap & Hf).
    destruct (coe2rv_rel Hp Hm N I K K0 0 0 (z0' K K0) (Some p) (Some e) (Some i) (Some ra) (Some ap) (Some f) (Some mu) p e i ra ap f mu) as [A1 A2]; try assumption;
      [eapply self; eassumption|eapply self; eassumption|].
    destruct (coe2rv_rel Hp Hm N I K K0 lam tau HK (Some p) (Some e) (Some i) (Some ra) (Some ap) (Some f) (Some mu) p' e i ra ap f mu') as [B1 B2]; try assumption.
    split; apply vfol; assumption.
  Qed.
  (** ** formulas on scalars *)
  Lemma scalars_units (lam tau K : Z) (a a' t t' mu mu' : bf) : 8 * Z.abs lam + 4 * Z.abs tau <= K -> scaled lam a a' -> scaled tau t t' -> scaled (3 * lam - 2 * tau) mu mu' ->
    follows tau (@orb_period _ (Num_W N K) (Some a) (Some mu)) (@orb_period _ N a mu) (@orb_period _ N a' mu') /\
    follows 0 (@mean_anomaly_elps _ (Num_W N K) (Some a) (Some t) (Some mu)) (@mean_anomaly_elps _ N a t mu) (@mean_anomaly_elps _ N a' t' mu') /\
    follows 0 (@mean_anomaly_hypb _ (Num_W N K) (Some a) (Some t) (Some mu)) (@mean_anomaly_hypb _ N a t mu) (@mean_anomaly_hypb _ N a' t' mu').
  Proof using I.
    intros HK A T M. assert (K0 : 0 <= K) by lia. pose proof (self _ _ _ A) as A0. pose proof (self _ _ _ T) as T0. pose proof (self _ _ _ M) as M0.
    pose proof (period_rel Hp Hm N I K K0 0 0 (z0' K K0) (Some a) (Some mu) a mu A0 M0) as P. pose proof (period_rel Hp Hm N I K K0 lam tau HK (Some a) (Some mu) a' mu' A M) as P'.
    destruct (elps_rel Hp Hm N I K K0 0 0 (z0' K K0) (Some a) (Some t) (Some mu) a t mu A0 T0 M0) as [E H].
    destruct (elps_rel Hp Hm N I K K0 lam tau HK (Some a) (Some t) (Some mu) a' t' mu' A T M) as [E' H'].
    split; [|split]; apply fol; assumption.
  Qed.
  Lemma nmax_units (lam tau K : Z) (rp rp' r1 r1' r2 r2' t t' mu mu' : bf) : 8 * Z.abs lam + 4 * Z.abs tau <= K ->
    scaled lam rp rp' -> scaled lam r1 r1' -> scaled lam r2 r2' -> scaled tau t t' -> scaled (3 * lam - 2 * tau) mu mu' ->
    follows 0 (@nmax_by_periapsis _ (Num_W N K) (Some rp) (Some r1) (Some r2) (Some t) (Some mu)) (@nmax_by_periapsis _ N rp r1 r2 t mu) (@nmax_by_periapsis _ N rp' r1' r2' t' mu').
  Proof using I.
    intros HK A B C T M. assert (K0 : 0 <= K) by lia. apply fol.
    - apply (nmax_rel Hp Hm N I K K0 0 0 (z0' K K0)); eapply self; eassumption.
    - apply (nmax_rel Hp Hm N I K K0 lam tau HK); eassumption.
  Qed.
  (** ** path checks *)
  Lemma path_units (lam tau K : Z) (r1 r1' v1 v1' r2 r2' : V3 bf) (mu mu' rmin rmin' : bf) : 8 * Z.abs lam + 4 * Z.abs tau <= K ->
    vscaled lam r1 r1' -> vscaled (lam - tau) v1 v1' -> vscaled lam r2 r2' -> scaled (3 * lam - 2 * tau) mu mu' -> scaled lam rmin rmin' ->
    let n := Num_W N K in let x := vsome r1 in let v := vsome v1 in let y := vsome r2 in let e := @eccentricity_vector _ n x v (Some mu) in
    (@vinner _ n (@vcross _ n x v) (@vcross _ n x y) <> None -> @is_short_way _ N r1' v1' r2' = @is_short_way _ N r1 v1 r2) /\
    (@vinner _ n (@vcross _ n x v) (@vcross _ n x y) <> None -> @vinner _ n (@vcross _ n x y) (@vcross _ n x e) <> None -> @vinner _ n (@vcross _ n x y) (@vcross _ n e y) <> None ->
       @pass_perigee _ N r1' v1' r2' mu' = @pass_perigee _ N r1 v1 r2 mu) /\
    (@radius_periapsis _ n (@semiparameter _ n (@vector_norm _ n (@angular_momentum _ n x v)) (Some mu)) (@vector_norm _ n e) <> None ->
       @rp_islower_rmin _ N rmin' r1' v1' mu' = @rp_islower_rmin _ N rmin r1 v1 mu).
  Proof using I.
    intros HK A B C M R n x v y e. assert (K0 : 0 <= K) by lia.
    pose proof (vself _ _ _ A) as A0. pose proof (vself _ _ _ B) as B0. pose proof (vself _ _ _ C) as C0. pose proof (self _ _ _ M) as M0. pose proof (self _ _ _ R) as R0.
    split; [|split].
    - intros S. transitivity (@is_short_way _ n x v y); [|symmetry].
      + exact (short_rel Hp Hm N I K K0 lam tau HK x v y r1' v1' r2' A B C S).
      + exact (short_rel Hp Hm N I K K0 0 0 (z0' K K0) x v y r1 v1 r2 A0 B0 C0 S).
    - intros S1 S2 S3. transitivity (@pass_perigee _ n x v y (Some mu)); [|symmetry].
      + exact (perigee_rel Hp Hm N I K K0 lam tau HK x v y (Some mu) r1' v1' r2' mu' A B C M S1 S2 S3).
      + exact (perigee_rel Hp Hm N I K K0 0 0 (z0' K K0) x v y (Some mu) r1 v1 r2 mu A0 B0 C0 M0 S1 S2 S3).
    - intros S. transitivity (@rp_islower_rmin _ n (Some rmin) x v (Some mu)); [|symmetry].
      + exact (rpmin_rel Hp Hm N I K K0 lam tau HK x v (Some mu) (Some rmin) r1' v1' mu' rmin' A B M R ltac:(discriminate) S).
      + exact (rpmin_rel Hp Hm N I K K0 0 0 (z0' K K0) x v (Some mu) (Some rmin) r1 v1 mu rmin A0 B0 M0 R0 ltac:(discriminate) S).
  Qed.
  (** ** forces *)
  Lemma unit0 (key : string) : unit_of 0 0 key = 0. Proof using. unfold unit_of. destruct (String.eqb key "mu"); [reflexivity|]. now destruct (String.eqb key "R_eq" || String.eqb key "rmin")%bool. Qed.
  Lemma RD_some (lam tau : Z) (d d' : list (string * bf)) : dscaled lam tau d d' -> RD lam tau (dsome d) d' /\ RD 0 0 (dsome d) d.
  Proof using.
    intros H. induction H as [|p q d d' [E S] _ [IH1 IH2]]; [split; constructor|].
    split; constructor; try assumption; cbn [fst snd]; (split; [assumption || reflexivity|]).
    - exact S.
    - rewrite unit0. exact (self _ _ _ S).
  Qed.
  Lemma RX_some (lam : Z) (x x' : list bf) : xscaled lam x x' -> RX lam (map Some x) x' /\ RX 0 (map Some x) x.
  Proof using.
    intros [E H]. unfold RX. rewrite map_length, firstn_map. split; (split; [assumption || reflexivity|]).
    - clear E. induction H; cbn [map]; constructor; auto.
    - clear E. revert H. generalize (firstn 3 x') as y'. generalize (firstn 3 x) as y. intros y y' H. induction H as [|a b y y' A _ IH]; cbn [map]; constructor; [exact (self _ _ _ A)|exact IH].
  Qed.
  Lemma rfol {G : Type} (Q Q' : G -> V3 bf -> Prop) (P : G -> V3 bf -> V3 bf -> Prop) g a b : (forall g a b, Q g a -> Q' g b -> P g a b) -> Rres Q g a -> Rres Q' g b -> rfollows P g a b.
  Proof using. intros H A B. destruct g, a, b; cbn in *; try contradiction; auto. Qed.
  Lemma rfol1 {G : Type} (Q Q' : G -> bf -> Prop) (P : G -> bf -> bf -> Prop) g a b : (forall g a b, Q g a -> Q' g b -> P g a b) -> Rres Q g a -> Rres Q' g b -> rfollows P g a b.
  Proof using. intros H A B. destruct g, a, b; cbn in *; try contradiction; auto. Qed.
  Lemma forces_units (lam tau K : Z) (t t' : bf) (x x' : list bf) (d d' : list (string * bf)) : 8 * Z.abs lam + 4 * Z.abs tau <= K -> xscaled lam x x' -> dscaled lam tau d d' ->
    rfollows (vfollows (lam - 2 * tau)) (@point_mass_grav _ (Num_W N K) (Some t) (map Some x) (dsome d)) (@point_mass_grav _ N t x d) (@point_mass_grav _ N t' x' d') /\
    rfollows (vfollows (lam - 2 * tau)) (@j2_acc _ (Num_W N K) (Some t) (map Some x) (dsome d)) (@j2_acc _ N t x d) (@j2_acc _ N t' x' d') /\
    rfollows (vfollows (lam - 2 * tau)) (@j3_acc _ (Num_W N K) (Some t) (map Some x) (dsome d)) (@j3_acc _ N t x d) (@j3_acc _ N t' x' d') /\
    rfollows (vfollows (lam - 2 * tau)) (@j4_acc _ (Num_W N K) (Some t) (map Some x) (dsome d)) (@j4_acc _ N t x d) (@j4_acc _ N t' x' d') /\
    rfollows (follows lam) (@radius_islow _ (Num_W N K) (Some t) (map Some x) (dsome d)) (@radius_islow _ N t x d) (@radius_islow _ N t' x' d').
  Proof using I.
    intros HK X D. assert (K0 : 0 <= K) by lia. destruct (RX_some _ _ _ X) as [X1 X0]. destruct (RD_some _ _ _ _ D) as [D1 D0].
    split; [|split; [|split; [|split]]].
    - eapply rfol; [apply vfol|apply (pm_rel Hp Hm N I K K0 0 0 (z0' K K0)); eassumption|apply (pm_rel Hp Hm N I K K0 lam tau HK); eassumption].
    - eapply rfol; [apply vfol|apply (j2_rel Hp Hm N I K K0 0 0 (z0' K K0)); eassumption|apply (j2_rel Hp Hm N I K K0 lam tau HK); eassumption].
    - eapply rfol; [apply vfol|apply (j3_rel Hp Hm N I K K0 0 0 (z0' K K0)); eassumption|apply (j3_rel Hp Hm N I K K0 lam tau HK); eassumption].
    - eapply rfol; [apply vfol|apply (j4_rel Hp Hm N I K K0 0 0 (z0' K K0)); eassumption|apply (j4_rel Hp Hm N I K K0 lam tau HK); eassumption].
    - eapply rfol1; [apply fol|apply (low_rel Hp Hm N I K K0 0 0 (z0' K K0)); eassumption|apply (low_rel Hp Hm N I K K0 lam tau HK); eassumption].
  Qed.
End Main.
