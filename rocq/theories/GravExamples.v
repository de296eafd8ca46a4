(** * GravExamples: concrete instances for C39-C43 and C50 *)
From Coq Require Import Reals Lra Lia Psatz List String ZArith.
From Coquelicot Require Import Coquelicot.
From Verif Require Import Num NumR Spec SpecGrav RLib Ana TwoBody RotMat RotFacts Gravity GravFacts GravMore.
Import ListNotations.
Local Open Scope R_scope.
Local Open Scope string_scope.

Definition q345 : vec := mk3 3 0 4.
Lemma n345 : vnorm (mk3 3 0 4) = 5.
Proof. apply vnorm_unique; [lra|]. unfold dot; cbn [c0 c1 c2]. ring. Qed.
Lemma ok_eq {A} (a b : A) : a = b -> Ok a = Ok b. Proof. congruence. Qed.
Lemma pm_example : point_mass_grav 0 [3; 0; 4; 7; 8; 9] [("mu", 2)] = Ok (mk3 (- (6 / 125)) 0 (- (8 / 125))).
Proof.
  change [3; 0; 4; 7; 8; 9] with (state (mk3 3 0 4) [7; 8; 9]). rewrite (pm_R _ _ _ _ 2) by reflexivity.
  apply ok_eq. unfold gravity. rewrite n345. unfold smul; cbn [c0 c1 c2]. apply mk3_eq; field.
Qed.
Lemma j2_example : j2_acc 0 [3; 0; 4] [("R_eq", 1); ("J2", 1); ("x", 9); ("mu", 1)]
  = Ok (mk3 (99 / 31250) 0 (12 / 31250)).
Proof.
  change [3; 0; 4] with (state (mk3 3 0 4) []). rewrite (j2_R _ _ _ _ 1 1 1) by reflexivity.
  apply ok_eq. unfold j2R. rewrite n345. cbn [c0 c1 c2]. apply mk3_eq; field.
Qed.
Lemma j3_example : j3_acc 0 [3; 0; 4] [("R_eq", 1); ("J3", 1); ("mu", 1)]
  = Ok (mk3 (444 / 781250) 0 (- (233 / 781250))).
Proof.
  change [3; 0; 4] with (state (mk3 3 0 4) []). rewrite (j3_R _ _ _ _ 1 1 1) by reflexivity.
  apply ok_eq. unfold j3R. rewrite n345. cbn [c0 c1 c2]. apply mk3_eq; field.
Qed.
Lemma j4_example : j4_acc 0 [3; 0; 4] [("R_eq", 1); ("J4", 1); ("mu", 1)]
  = Ok (mk3 (18045 / 390625000) 0 (- (149820 / 1171875000))).
Proof.
  change [3; 0; 4] with (state (mk3 3 0 4) []). rewrite (j4_R _ _ _ _ 1 1 1) by reflexivity.
  apply ok_eq. unfold j4R. rewrite n345. cbn [c0 c1 c2]. apply mk3_eq; field.
Qed.
Lemma missing_example : j2_acc 0 [3; 0; 4] [("R_eq", 1); ("mu", 1)] = Raise (KeyError "J2").
Proof. reflexivity. Qed.
Lemma radius_example : radius_islow 0 [3; 0; 4; 1] [("rmin", 6)] = Ok (-1).
Proof.
  change [3; 0; 4; 1] with (state (mk3 3 0 4) [1]). rewrite (radius_R _ _ _ _ 6) by reflexivity.
  apply ok_eq. rewrite n345. ring.
Qed.

(** Quantified versions of the plain forms. *)
Definition keys (mu J Req : R) (name : string) (args : list (string * R)) : Prop :=
  get "mu" args = Some mu /\ get name args = Some J /\ get "R_eq" args = Some Req.

Lemma gradient_pm t q rest args mu g : q <> vzero -> get "mu" args = Some mu ->
  point_mass_grav t (state q rest) args = Ok g -> gradient (kepler_potential mu) q g.
Proof. intros Hq H. rewrite (pm_R _ _ _ _ _ H). intros E. injection E as <-. now apply grad_pm. Qed.
Lemma size_pm t q rest args mu g : q <> vzero -> get "mu" args = Some mu ->
  point_mass_grav t (state q rest) args = Ok g ->
  g = smul (- (mu / vnorm q ^ 3)) q /\ vnorm g = Rabs mu / vnorm q ^ 2.
Proof.
  intros Hq H. rewrite (pm_R _ _ _ _ _ H). intros E. apply (f_equal (fun x => match x with Ok a => a | _ => g end)) in E.
  subst g. split; [reflexivity|]. now apply pm_size.
Qed.
Lemma divergence_ext F G q d : (forall x, F x = G x) -> divergence F q d -> divergence G q d.
Proof.
  intros E (dx & dy & dz & A & B & C & D). exists dx, dy, dz.
  split; [|split; [|split; [|exact D]]]; (eapply is_derive_ext; [|eassumption]); intros; cbv beta; now rewrite E.
Qed.
Lemma ok_inj {A} (a b : A) : Ok a = Ok b -> a = b. Proof. congruence. Qed.
Lemma divfree_pm t rest args mu F q : get "mu" args = Some mu ->
  (forall x, point_mass_grav t (state x rest) args = Ok (F x)) -> q <> vzero -> divergence F q 0.
Proof.
  intros H HF Hq. apply (divergence_ext (gravity mu)); [|now apply div_pm].
  intros x. apply ok_inj. rewrite <- HF. symmetry. now apply pm_R.
Qed.
Lemma gradient_j2 t q rest args mu J Req g : q <> vzero -> keys mu J Req "J2" args ->
  j2_acc t (state q rest) args = Ok g -> gradient (zonal 2 mu J Req) q g.
Proof. intros Hq (A & B & C). rewrite (j2_R _ _ _ _ _ _ _ A B C). intros E. apply ok_inj in E as <-. now apply grad_j2. Qed.
Lemma gradient_j3 t q rest args mu J Req g : q <> vzero -> keys mu J Req "J3" args ->
  j3_acc t (state q rest) args = Ok g -> gradient (zonal 3 mu J Req) q g.
Proof. intros Hq (A & B & C). rewrite (j3_R _ _ _ _ _ _ _ A B C). intros E. apply ok_inj in E as <-. now apply grad_j3. Qed.
Lemma gradient_j4 t q rest args mu J Req g : q <> vzero -> keys mu J Req "J4" args ->
  j4_acc t (state q rest) args = Ok g -> gradient (zonal 4 mu J Req) q g.
Proof. intros Hq (A & B & C). rewrite (j4_R _ _ _ _ _ _ _ A B C). intros E. apply ok_inj in E as <-. now apply grad_j4. Qed.
Lemma divfree_j2 t rest args mu J Req F q : keys mu J Req "J2" args ->
  (forall x, j2_acc t (state x rest) args = Ok (F x)) -> q <> vzero -> divergence F q 0.
Proof.
  intros (A & B & C) HF Hq. apply (divergence_ext (j2R mu J Req)); [|now apply div_j2].
  intros x. apply ok_inj. rewrite <- HF. symmetry. now apply j2_R.
Qed.
Lemma divfree_j3 t rest args mu J Req F q : keys mu J Req "J3" args ->
  (forall x, j3_acc t (state x rest) args = Ok (F x)) -> q <> vzero -> divergence F q 0.
Proof.
  intros (A & B & C) HF Hq. apply (divergence_ext (j3R mu J Req)); [|now apply div_j3].
  intros x. apply ok_inj. rewrite <- HF. symmetry. now apply j3_R.
Qed.
Lemma divfree_j4 t rest args mu J Req F q : keys mu J Req "J4" args ->
  (forall x, j4_acc t (state x rest) args = Ok (F x)) -> q <> vzero -> divergence F q 0.
Proof.
  intros (A & B & C) HF Hq. apply (divergence_ext (j4R mu J Req)); [|now apply div_j4].
  intros x. apply ok_inj. rewrite <- HF. symmetry. now apply j4_R.
Qed.

(** Symmetries stated for arbitrary dictionaries: the model either raises or is equivariant. *)
Definition res_map {A B : Type} (f : A -> B) (m : res A) : res B :=
  match m with Ok a => Ok (f a) | Raise e => Raise e end.
Lemma get_dec k (args : list (string * R)) : (exists v, get k args = Some v) \/ get k args = None.
Proof. destruct (get k args); eauto. Qed.
Lemma pm_rot A t q rest args : rotation A ->
  point_mass_grav t (state (row_col A q) rest) args = res_map (row_col A) (point_mass_grav t (state q rest) args).
Proof.
  intros HA. destruct (get_dec "mu" args) as [[mu H]|H].
  - rewrite !(pm_R _ _ _ _ _ H). cbn [res_map]. now rewrite rot_gravity.
  - unfold point_mass_grav. rewrite !lookup_get, H. reflexivity.
Qed.
Ltac threekeys args J lem tac :=
  destruct (get_dec "mu" args) as [[? ?]|?];
  [destruct (get_dec J args) as [[? ?]|?];
   [destruct (get_dec "R_eq" args) as [[? ?]|?]|]|];
  [erewrite !lem by eassumption; cbn [res_map]; tac | | | ].
Lemma j2_rot a t q rest args :
  j2_acc t (state (row_col (rotmat3dz a) q) rest) args = res_map (row_col (rotmat3dz a)) (j2_acc t (state q rest) args).
Proof.
  threekeys args "J2" j2_R ltac:(now rewrite rot_j2);
    unfold j2_acc; rewrite !lookup_get; repeat match goal with H : get _ _ = _ |- _ => rewrite H end; reflexivity.
Qed.
Lemma j3_rot a t q rest args :
  j3_acc t (state (row_col (rotmat3dz a) q) rest) args = res_map (row_col (rotmat3dz a)) (j3_acc t (state q rest) args).
Proof.
  threekeys args "J3" j3_R ltac:(now rewrite rot_j3);
    unfold j3_acc; rewrite !lookup_get; repeat match goal with H : get _ _ = _ |- _ => rewrite H end; reflexivity.
Qed.
Lemma j4_rot a t q rest args :
  j4_acc t (state (row_col (rotmat3dz a) q) rest) args = res_map (row_col (rotmat3dz a)) (j4_acc t (state q rest) args).
Proof.
  threekeys args "J4" j4_R ltac:(now rewrite rot_j4);
    unfold j4_acc; rewrite !lookup_get; repeat match goal with H : get _ _ = _ |- _ => rewrite H end; reflexivity.
Qed.
Lemma pm_mirror t q rest args :
  point_mass_grav t (state (mirror q) rest) args = res_map mirror (point_mass_grav t (state q rest) args).
Proof.
  destruct (get_dec "mu" args) as [[mu H]|H].
  - rewrite !(pm_R _ _ _ _ _ H). cbn [res_map]. now rewrite mirror_pm.
  - unfold point_mass_grav. rewrite !lookup_get, H. reflexivity.
Qed.
Lemma j2_mirror t q rest args :
  j2_acc t (state (mirror q) rest) args = res_map mirror (j2_acc t (state q rest) args).
Proof.
  threekeys args "J2" j2_R ltac:(now rewrite mirror_j2);
    unfold j2_acc; rewrite !lookup_get; repeat match goal with H : get _ _ = _ |- _ => rewrite H end; reflexivity.
Qed.
Lemma j3_mirror t q rest args :
  j3_acc t (state (mirror q) rest) args = res_map (fun a => smul (-1) (mirror a)) (j3_acc t (state q rest) args).
Proof.
  threekeys args "J3" j3_R ltac:(now rewrite mirror_j3);
    unfold j3_acc; rewrite !lookup_get; repeat match goal with H : get _ _ = _ |- _ => rewrite H end; reflexivity.
Qed.
Lemma j4_mirror t q rest args :
  j4_acc t (state (mirror q) rest) args = res_map mirror (j4_acc t (state q rest) args).
Proof.
  threekeys args "J4" j4_R ltac:(now rewrite mirror_j4);
    unfold j4_acc; rewrite !lookup_get; repeat match goal with H : get _ _ = _ |- _ => rewrite H end; reflexivity.
Qed.
Lemma no_torque t q rest args g :
  (point_mass_grav t (state q rest) args = Ok g -> cross q g = vzero) /\
  (j2_acc t (state q rest) args = Ok g \/ j3_acc t (state q rest) args = Ok g \/
   j4_acc t (state q rest) args = Ok g -> c2 (cross q g) = 0).
Proof.
  split.
  - destruct (get_dec "mu" args) as [[mu H]|H].
    + rewrite (pm_R _ _ _ _ _ H). intros E. apply ok_inj in E as <-. apply torque_pm.
    + unfold point_mass_grav. rewrite lookup_get, H. discriminate.
  - intros [H|[H|H]]; revert H.
    + threekeys args "J2" j2_R ltac:(intros E; apply ok_inj in E as <-; apply torque_j2);
      unfold j2_acc; rewrite !lookup_get; repeat match goal with H : get _ _ = _ |- _ => rewrite H end; discriminate.
    + threekeys args "J3" j3_R ltac:(intros E; apply ok_inj in E as <-; apply torque_j3);
      unfold j3_acc; rewrite !lookup_get; repeat match goal with H : get _ _ = _ |- _ => rewrite H end; discriminate.
    + threekeys args "J4" j4_R ltac:(intros E; apply ok_inj in E as <-; apply torque_j4);
      unfold j4_acc; rewrite !lookup_get; repeat match goal with H : get _ _ = _ |- _ => rewrite H end; discriminate.
Qed.
Lemma defaults t q rest :
  point_mass_grav t (state q rest) pm_default = Ok (gravity 1 q) /\
  j2_acc t (state q rest) j2_default = Ok vzero /\
  j3_acc t (state q rest) j3_default = Ok vzero /\
  j4_acc t (state q rest) j4_default = Ok vzero /\
  radius_islow t (state q rest) radius_default = Ok (vnorm q).
Proof.
  assert (E1 : n_dec 1 1 = 1) by (unfold n_dec; cbn; field).
  assert (E0 : n_dec 0 1 = 0) by (unfold n_dec; cbn; field).
  unfold pm_default, j2_default, j3_default, j4_default, radius_default. rewrite E1, E0.
  split; [now apply pm_R|].
  split; [rewrite (j2_R _ _ _ _ 1 0 1) by reflexivity; apply ok_eq; unfold j2R, vzero; apply mk3_eq; unfold Rdiv; ring|].
  split; [rewrite (j3_R _ _ _ _ 1 0 1) by reflexivity; apply ok_eq; unfold j3R, vzero; apply mk3_eq; unfold Rdiv; ring|].
  split; [rewrite (j4_R _ _ _ _ 1 0 1) by reflexivity; apply ok_eq; unfold j4R, vzero; apply mk3_eq; unfold Rdiv; ring|].
  rewrite (radius_R _ _ _ _ 0) by reflexivity. apply ok_eq. ring.
Qed.

Lemma pm_short t a b mu args : get "mu" args = Some mu ->
  point_mass_grav t [a; b] args = Ok (smul (- (mu / vnorm (mk3 a b 0) ^ 3)) (mk3 a b b)) /\
  point_mass_grav t [a] args = Ok (smul (- (mu / Rabs a ^ 3)) (mk3 a a a)) /\
  point_mass_grav t [] args = Raise IndexError.
Proof.
  intros H. unfold point_mass_grav. rewrite !lookup_get, H. cbn [bind]. rewrite !p3.
  assert (A : norm_first3 [a; b] = vnorm (mk3 a b 0)).
  { unfold norm_first3, vnorm, dot; cbn. f_equal. ring. }
  assert (B : norm_first3 [a] = Rabs a).
  { unfold norm_first3; cbn. apply sqrt_Rsqr_abs. }
  rewrite A, B. repeat split.
Qed.

(** The event. *)
Lemma radius_sign t q rest args rmin f : get "rmin" args = Some rmin ->
  radius_islow t (state q rest) args = Ok f ->
  (f < 0 <-> vnorm q < rmin) /\ (f = 0 <-> vnorm q = rmin) /\ (0 < f <-> rmin < vnorm q).
Proof. intros H. rewrite (radius_R _ _ _ _ _ H). intros E. apply ok_inj in E as <-. lra. Qed.
Lemma radius_crossing (r : R -> vec) (rest : R -> list R) (a b rmin : R) args :
  get "rmin" args = Some rmin -> a < b ->
  (forall t, a <= t <= b -> continuity_pt (fun s => c0 (r s)) t /\
     continuity_pt (fun s => c1 (r s)) t /\ continuity_pt (fun s => c2 (r s)) t) ->
  rmin < vnorm (r a) -> vnorm (r b) < rmin ->
  exists t, a < t < b /\ radius_islow t (state (r t) (rest t)) args = Ok 0.
Proof.
  intros H Hab Hc Ha Hb. destruct (crossing r a b rmin Hab Hc Ha Hb) as [t [Ht E]].
  exists t. split; auto. rewrite (radius_R _ _ _ _ _ H). now rewrite E.
Qed.

(** The perturbed motion with the accelerations of the code. *)
Lemma conserved (mu J2 J3 J4 Req : R) (args : list (string * R)) (r v : R -> vec) :
  get "mu" args = Some mu -> get "J2" args = Some J2 -> get "J3" args = Some J3 ->
  get "J4" args = Some J4 -> get "R_eq" args = Some Req ->
  (forall t, r t <> vzero /\ vderive r t (v t) /\
     exists a0 a2 a3 a4,
       point_mass_grav t (state (r t) [c0 (v t); c1 (v t); c2 (v t)]) args = Ok a0 /\
       j2_acc t (state (r t) [c0 (v t); c1 (v t); c2 (v t)]) args = Ok a2 /\
       j3_acc t (state (r t) [c0 (v t); c1 (v t); c2 (v t)]) args = Ok a3 /\
       j4_acc t (state (r t) [c0 (v t); c1 (v t); c2 (v t)]) args = Ok a4 /\
       vderive v t (vplus (vplus (vplus a0 a2) a3) a4)) ->
  forall a b,
  (dot (v a) (v a) / 2 - (kepler_potential mu (r a) + zonal 2 mu J2 Req (r a)
     + zonal 3 mu J3 Req (r a) + zonal 4 mu J4 Req (r a))
   = dot (v b) (v b) / 2 - (kepler_potential mu (r b) + zonal 2 mu J2 Req (r b)
     + zonal 3 mu J3 Req (r b) + zonal 4 mu J4 Req (r b))) /\
  c2 (cross (r a) (v a)) = c2 (cross (r b) (v b)).
Proof.
  intros Hmu H2 H3 H4 HR Hm.
  assert (Hm' : forall t, r t <> vzero /\ vderive r t (v t) /\
    vderive v t (total_acc mu J2 J3 J4 Req (r t))).
  { intros t. destruct (Hm t) as (A & B & a0 & a2 & a3 & a4 & E0 & E2 & E3 & E4 & D).
    split; [exact A|]. split; [exact B|].
    rewrite (pm_R _ _ _ _ _ Hmu) in E0. rewrite (j2_R _ _ _ _ _ _ _ Hmu H2 HR) in E2.
    rewrite (j3_R _ _ _ _ _ _ _ Hmu H3 HR) in E3. rewrite (j4_R _ _ _ _ _ _ _ Hmu H4 HR) in E4.
    apply ok_inj in E0, E2, E3, E4. subst. exact D. }
  intros a b. split.
  - exact (energy_const mu J2 J3 J4 Req r v Hm' a b).
  - exact (hz_const mu J2 J3 J4 Req r v Hm' a b).
Qed.

(** A circular equatorial orbit around a very oblate body. *)
Definition oblate : list (string * R) := [("mu", 1); ("J2", 2); ("J3", 0); ("J4", 0); ("R_eq", 1)].
Definition circ_r (t : R) : vec := mk3 (cos (2 * t)) (sin (2 * t)) 0.
Definition circ_v (t : R) : vec := mk3 (- 2 * sin (2 * t)) (2 * cos (2 * t)) 0.
Lemma circ_n t : vnorm (circ_r t) = 1.
Proof.
  apply vnorm_unique; [lra|]. unfold dot, circ_r; cbn [c0 c1 c2].
  pose proof (sin2_cos2 (2 * t)) as H. unfold Rsqr in H. lra.
Qed.
Lemma dcos2 (t : R) : is_derive (fun s : R => cos (2 * s)) t (- 2 * sin (2 * t)).
Proof. auto_derive; auto. ring. Qed.
Lemma dsin2 (t : R) : is_derive (fun s : R => sin (2 * s)) t (2 * cos (2 * t)).
Proof. auto_derive; auto. ring. Qed.
Lemma circular_example t :
  circ_r t <> vzero /\ vderive circ_r t (circ_v t) /\
  exists a0 a2 a3 a4,
    point_mass_grav t (state (circ_r t) [c0 (circ_v t); c1 (circ_v t); c2 (circ_v t)]) oblate = Ok a0 /\
    j2_acc t (state (circ_r t) [c0 (circ_v t); c1 (circ_v t); c2 (circ_v t)]) oblate = Ok a2 /\
    j3_acc t (state (circ_r t) [c0 (circ_v t); c1 (circ_v t); c2 (circ_v t)]) oblate = Ok a3 /\
    j4_acc t (state (circ_r t) [c0 (circ_v t); c1 (circ_v t); c2 (circ_v t)]) oblate = Ok a4 /\
    vderive circ_v t (vplus (vplus (vplus a0 a2) a3) a4).
Proof.
  split; [apply vnorm_neq; rewrite circ_n; lra|].
  split.
  { unfold circ_r, circ_v. split; [|split]; cbn [c0 c1 c2]; auto using dcos2, dsin2, der_const. }
  do 4 eexists.
  split; [apply (pm_R _ _ _ _ 1); reflexivity|].
  split; [apply (j2_R _ _ _ _ 1 2 1); reflexivity|].
  split; [apply (j3_R _ _ _ _ 1 0 1); reflexivity|].
  split; [apply (j4_R _ _ _ _ 1 0 1); reflexivity|].
  replace (vplus _ _) with (smul (-4) (circ_r t)).
  - unfold circ_r, circ_v, smul. split; [|split]; cbn [c0 c1 c2].
    + eapply der_eq; [apply der_scal, dsin2|]. ring.
    + eapply der_eq; [apply der_scal, dcos2|]. ring.
    + eapply der_eq; [apply der_const|]. ring.
  - unfold gravity, j2R, j3R, j4R. rewrite circ_n. unfold circ_r, vplus, smul; cbn [c0 c1 c2].
    apply mk3_eq; field.
Qed.
Lemma rotated_example :
  row_col (rotmat3dz (PI / 2)) (mk3 (99 / 31250) 0 (12 / 31250)) = mk3 0 (99 / 31250) (12 / 31250) /\
  j2_acc 0 [3; 0; 4] [("R_eq", 1); ("J2", 1); ("x", 9); ("mu", 1)] = Ok (mk3 (99 / 31250) 0 (12 / 31250)) /\
  j2_acc 0 (state (row_col (rotmat3dz (PI / 2)) (mk3 3 0 4)) []) [("R_eq", 1); ("J2", 1); ("x", 9); ("mu", 1)]
    = Ok (mk3 0 (99 / 31250) (12 / 31250)).
Proof.
  assert (E : row_col (rotmat3dz (PI / 2)) (mk3 (99 / 31250) 0 (12 / 31250)) = mk3 0 (99 / 31250) (12 / 31250)).
  { rewrite rotmat3dz_R, sin_PI2, cos_PI2. munfold. apply mk3_eq; field. }
  split; [exact E|]. split; [exact j2_example|].
  rewrite j2_rot. change (state (mk3 3 0 4) []) with [3; 0; 4]. rewrite j2_example. cbn [res_map]. now rewrite E.
Qed.
