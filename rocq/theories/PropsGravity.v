(** * Properties C39-C43 and C50: gravity models and the radius event

    Theorems only; proofs are in [GravFacts], [GravMore], [GravExamples].  C42 holds for any
    arithmetic, the others are over exact reals.  [state q rest] is the state vector whose
    first three components are [q]. *)
From Coq Require Import Reals List String ZArith.
From Coquelicot Require Import Coquelicot.
From Verif Require Import Num NumR Spec SpecGrav RLib RotMat Gravity GravFacts GravMore GravExamples.
Import ListNotations.
Local Open Scope R_scope.
Local Open Scope string_scope.

(** ** C39 *)
Theorem C39_gradient : forall (t : R) (q : vec) (rest : list R) (args : list (string * R)) (mu : R) (g : vec),
  q <> vzero -> get "mu" args = Some mu ->
  point_mass_grav t (state q rest) args = Ok g -> gradient (fun x => mu / vnorm x) q g.
Proof. exact gradient_pm. Qed.
Print Assumptions C39_gradient.

Theorem C39_inverse_square : forall (t : R) (q : vec) (rest : list R) (args : list (string * R)) (mu : R) (g : vec),
  q <> vzero -> get "mu" args = Some mu ->
  point_mass_grav t (state q rest) args = Ok g ->
  g = smul (- (mu / vnorm q ^ 3)) q /\ vnorm g = Rabs mu / vnorm q ^ 2.
Proof. exact size_pm. Qed.
Print Assumptions C39_inverse_square.

Theorem C39_divergence_free : forall (t : R) (rest : list R) (args : list (string * R)) (mu : R)
    (F : vec -> vec) (q : vec),
  get "mu" args = Some mu -> (forall x, point_mass_grav t (state x rest) args = Ok (F x)) ->
  q <> vzero -> divergence F q 0.
Proof. exact divfree_pm. Qed.
Print Assumptions C39_divergence_free.

Example C39_example : point_mass_grav 0 [3; 0; 4; 7; 8; 9] [("mu", 2)] = Ok (mk3 (- (6 / 125)) 0 (- (8 / 125))).
Proof. exact pm_example. Qed.

(** ** C40 *)
Theorem C40_gradient_j2 : forall (t : R) (q : vec) (rest : list R) (args : list (string * R)) (mu J Req : R) (g : vec),
  q <> vzero -> (get "mu" args = Some mu /\ get "J2" args = Some J /\ get "R_eq" args = Some Req) ->
  j2_acc t (state q rest) args = Ok g ->
  gradient (fun x => - (mu * J * Req ^ 2 * legendre 2 (c2 x / vnorm x) / vnorm x ^ 3)) q g.
Proof. exact gradient_j2. Qed.
Print Assumptions C40_gradient_j2.

Theorem C40_gradient_j3 : forall (t : R) (q : vec) (rest : list R) (args : list (string * R)) (mu J Req : R) (g : vec),
  q <> vzero -> (get "mu" args = Some mu /\ get "J3" args = Some J /\ get "R_eq" args = Some Req) ->
  j3_acc t (state q rest) args = Ok g ->
  gradient (fun x => - (mu * J * Req ^ 3 * legendre 3 (c2 x / vnorm x) / vnorm x ^ 4)) q g.
Proof. exact gradient_j3. Qed.
Print Assumptions C40_gradient_j3.

Theorem C40_gradient_j4 : forall (t : R) (q : vec) (rest : list R) (args : list (string * R)) (mu J Req : R) (g : vec),
  q <> vzero -> (get "mu" args = Some mu /\ get "J4" args = Some J /\ get "R_eq" args = Some Req) ->
  j4_acc t (state q rest) args = Ok g ->
  gradient (fun x => - (mu * J * Req ^ 4 * legendre 4 (c2 x / vnorm x) / vnorm x ^ 5)) q g.
Proof. exact gradient_j4. Qed.
Print Assumptions C40_gradient_j4.

Theorem C40_divergence_free : forall (t : R) (rest : list R) (args : list (string * R)) (mu J Req : R)
    (F : vec -> vec) (q : vec) (name : string),
  q <> vzero -> (get "mu" args = Some mu /\ get name args = Some J /\ get "R_eq" args = Some Req) ->
  (name = "J2" /\ (forall x, j2_acc t (state x rest) args = Ok (F x))) \/
  (name = "J3" /\ (forall x, j3_acc t (state x rest) args = Ok (F x))) \/
  (name = "J4" /\ (forall x, j4_acc t (state x rest) args = Ok (F x))) ->
  divergence F q 0.
Proof.
  intros t rest args mu J Req F q name Hq K [[-> H]|[[-> H]|[-> H]]].
  - exact (divfree_j2 t rest args mu J Req F q K H Hq).
  - exact (divfree_j3 t rest args mu J Req F q K H Hq).
  - exact (divfree_j4 t rest args mu J Req F q K H Hq).
Qed.
Print Assumptions C40_divergence_free.

Example C40_example :
  j2_acc 0 [3; 0; 4] [("R_eq", 1); ("J2", 1); ("x", 9); ("mu", 1)] = Ok (mk3 (99 / 31250) 0 (12 / 31250)) /\
  j3_acc 0 [3; 0; 4] [("R_eq", 1); ("J3", 1); ("mu", 1)] = Ok (mk3 (444 / 781250) 0 (- (233 / 781250))) /\
  j4_acc 0 [3; 0; 4] [("R_eq", 1); ("J4", 1); ("mu", 1)]
    = Ok (mk3 (18045 / 390625000) 0 (- (149820 / 1171875000))).
Proof. exact (conj j2_example (conj j3_example j4_example)). Qed.

(** ** C41 *)
Theorem C41_rotations_about_z : forall (a t : R) (q : vec) (rest : list R) (args : list (string * R)),
  let Rz := row_col (rotmat3dz a) in
  j2_acc t (state (Rz q) rest) args = res_map Rz (j2_acc t (state q rest) args) /\
  j3_acc t (state (Rz q) rest) args = res_map Rz (j3_acc t (state q rest) args) /\
  j4_acc t (state (Rz q) rest) args = res_map Rz (j4_acc t (state q rest) args).
Proof. intros a t q rest args. exact (conj (j2_rot a t q rest args) (conj (j3_rot a t q rest args) (j4_rot a t q rest args))). Qed.
Print Assumptions C41_rotations_about_z.

Theorem C41_all_rotations : forall (A : mat) (t : R) (q : vec) (rest : list R) (args : list (string * R)),
  rotation A ->
  point_mass_grav t (state (row_col A q) rest) args = res_map (row_col A) (point_mass_grav t (state q rest) args).
Proof. exact pm_rot. Qed.
Print Assumptions C41_all_rotations.

Theorem C41_reflection : forall (t : R) (q : vec) (rest : list R) (args : list (string * R)),
  let mirror := fun x : vec => mk3 (c0 x) (c1 x) (- c2 x) in
  point_mass_grav t (state (mirror q) rest) args = res_map mirror (point_mass_grav t (state q rest) args) /\
  j2_acc t (state (mirror q) rest) args = res_map mirror (j2_acc t (state q rest) args) /\
  j3_acc t (state (mirror q) rest) args = res_map (fun g => smul (-1) (mirror g)) (j3_acc t (state q rest) args) /\
  j4_acc t (state (mirror q) rest) args = res_map mirror (j4_acc t (state q rest) args).
Proof.
  intros t q rest args.
  exact (conj (pm_mirror t q rest args) (conj (j2_mirror t q rest args) (conj (j3_mirror t q rest args) (j4_mirror t q rest args)))).
Qed.
Print Assumptions C41_reflection.

Theorem C41_no_torque : forall (t : R) (q : vec) (rest : list R) (args : list (string * R)) (g : vec),
  (point_mass_grav t (state q rest) args = Ok g -> cross q g = vzero) /\
  (j2_acc t (state q rest) args = Ok g \/ j3_acc t (state q rest) args = Ok g \/
   j4_acc t (state q rest) args = Ok g -> c2 (cross q g) = 0).
Proof. exact no_torque. Qed.
Print Assumptions C41_no_torque.

Example C41_example : row_col (rotmat3dz (PI / 2)) (mk3 (99 / 31250) 0 (12 / 31250)) = mk3 0 (99 / 31250) (12 / 31250) /\
  j2_acc 0 [3; 0; 4] [("R_eq", 1); ("J2", 1); ("x", 9); ("mu", 1)] = Ok (mk3 (99 / 31250) 0 (12 / 31250)) /\
  j2_acc 0 (state (row_col (rotmat3dz (PI / 2)) (mk3 3 0 4)) []) [("R_eq", 1); ("J2", 1); ("x", 9); ("mu", 1)]
    = Ok (mk3 0 (99 / 31250) (12 / 31250)).
Proof. exact rotated_example. Qed.

(** ** C42: any arithmetic *)
Theorem C42_reads : forall (T : Type) (N : Num T) (t t' : T) (x x' : list T) (args args' : list (string * T)),
  (3 <= List.length x)%nat -> firstn 3 x = firstn 3 x' ->
  let same ks := forall k, In k ks -> get k args = get k args' in
  (same ["mu"] -> point_mass_grav t x args = point_mass_grav t' x' args') /\
  (same ["mu"; "J2"; "R_eq"] -> j2_acc t x args = j2_acc t' x' args') /\
  (same ["mu"; "J3"; "R_eq"] -> j3_acc t x args = j3_acc t' x' args') /\
  (same ["mu"; "J4"; "R_eq"] -> j4_acc t x args = j4_acc t' x' args') /\
  (same ["rmin"] -> radius_islow t x args = radius_islow t' x' args').
Proof.
  intros T N t t' x x' args args' H E.
  exact (conj (pm_indep t t' x x' args args' H E) (conj (j2_indep t t' x x' args args' H E)
    (conj (j3_indep t t' x x' args args' H E) (conj (j4_indep t t' x x' args args' H E)
    (radius_indep t t' x x' args args' H E))))).
Qed.
Print Assumptions C42_reads.

Theorem C42_errors : forall (T : Type) (N : Num T) (t : T) (x : list T) (args : list (string * T)),
  x <> [] ->
  let outcome (A : Type) (ks : list string) (m : res A) :=
    match find (missing args) ks with
    | Some k => m = Raise (KeyError k)
    | None => exists a, m = Ok a
    end in
  outcome _ ["mu"] (point_mass_grav t x args) /\
  outcome _ ["mu"; "J2"; "R_eq"] (j2_acc t x args) /\
  outcome _ ["mu"; "J3"; "R_eq"] (j3_acc t x args) /\
  outcome _ ["mu"; "J4"; "R_eq"] (j4_acc t x args) /\
  outcome _ ["rmin"] (radius_islow t x args).
Proof.
  intros T N t x args H.
  exact (conj (pm_errors t x args H) (conj (j2_errors t x args H)
    (conj (j3_errors t x args H) (conj (j4_errors t x args H) (radius_errors t x args))))).
Qed.
Print Assumptions C42_errors.

(** A state with fewer than three components is not rejected: the missing ones are read as the last
    one, while the distance uses those that are there.  An empty state raises [IndexError]. *)
Theorem C42_short : forall (t a b mu : R) (args : list (string * R)), get "mu" args = Some mu ->
  point_mass_grav t [a; b] args = Ok (smul (- (mu / vnorm (mk3 a b 0) ^ 3)) (mk3 a b b)) /\
  point_mass_grav t [a] args = Ok (smul (- (mu / Rabs a ^ 3)) (mk3 a a a)) /\
  point_mass_grav t [] args = Raise IndexError.
Proof. exact pm_short. Qed.
Print Assumptions C42_short.

(** With the default dictionaries (exact reals) the perturbations vanish. *)
Theorem C42_defaults : forall (t : R) (q : vec) (rest : list R),
  point_mass_grav t (state q rest) pm_default = Ok (gravity 1 q) /\
  j2_acc t (state q rest) j2_default = Ok vzero /\
  j3_acc t (state q rest) j3_default = Ok vzero /\
  j4_acc t (state q rest) j4_default = Ok vzero /\
  radius_islow t (state q rest) radius_default = Ok (vnorm q).
Proof. exact defaults. Qed.
Print Assumptions C42_defaults.

Example C42_example : j2_acc 0 [3; 0; 4] [("R_eq", 1); ("mu", 1)] = Raise (KeyError "J2") /\
  j2_acc 0 [3] [("R_eq", 1); ("mu", 1)] = Raise (KeyError "J2") /\
  point_mass_grav 0 [3; 0; 4; 7; 8; 9] [("mu", 2)] = point_mass_grav 5 [3; 0; 4] [("zz", 1); ("mu", 2)].
Proof. repeat split. Qed.

(** ** C43 *)
Theorem C43_sign : forall (t : R) (q : vec) (rest : list R) (args : list (string * R)) (rmin f : R),
  get "rmin" args = Some rmin -> radius_islow t (state q rest) args = Ok f ->
  (f < 0 <-> vnorm q < rmin) /\ (f = 0 <-> vnorm q = rmin) /\ (0 < f <-> rmin < vnorm q).
Proof. exact radius_sign. Qed.
Print Assumptions C43_sign.

Theorem C43_crossing : forall (r : R -> vec) (rest : R -> list R) (a b rmin : R) (args : list (string * R)),
  get "rmin" args = Some rmin -> a < b ->
  (forall t, a <= t <= b -> continuity_pt (fun s => c0 (r s)) t /\
     continuity_pt (fun s => c1 (r s)) t /\ continuity_pt (fun s => c2 (r s)) t) ->
  rmin < vnorm (r a) -> vnorm (r b) < rmin ->
  exists t, a < t < b /\ radius_islow t (state (r t) (rest t)) args = Ok 0.
Proof. exact radius_crossing. Qed.
Print Assumptions C43_crossing.

Example C43_example : radius_islow 0 [3; 0; 4; 1] [("rmin", 6)] = Ok (-1).
Proof. exact radius_example. Qed.

(** ** C50: motion under all four accelerations of the code *)
Theorem C50_conserved : forall (mu J2 J3 J4 Req : R) (args : list (string * R)) (r v : R -> vec),
  get "mu" args = Some mu -> get "J2" args = Some J2 -> get "J3" args = Some J3 ->
  get "J4" args = Some J4 -> get "R_eq" args = Some Req ->
  (forall t, r t <> vzero /\ vderive r t (v t) /\
     exists a0 a2 a3 a4,
       point_mass_grav t (state (r t) [c0 (v t); c1 (v t); c2 (v t)]) args = Ok a0 /\
       j2_acc t (state (r t) [c0 (v t); c1 (v t); c2 (v t)]) args = Ok a2 /\
       j3_acc t (state (r t) [c0 (v t); c1 (v t); c2 (v t)]) args = Ok a3 /\
       j4_acc t (state (r t) [c0 (v t); c1 (v t); c2 (v t)]) args = Ok a4 /\
       vderive v t (vplus (vplus (vplus a0 a2) a3) a4)) ->
  forall a b,
  (dot (v a) (v a) / 2 - (kepler_potential mu (r a) + zonal 2 mu J2 Req (r a)
     + zonal 3 mu J3 Req (r a) + zonal 4 mu J4 Req (r a))
   = dot (v b) (v b) / 2 - (kepler_potential mu (r b) + zonal 2 mu J2 Req (r b)
     + zonal 3 mu J3 Req (r b) + zonal 4 mu J4 Req (r b))) /\
  c2 (cross (r a) (v a)) = c2 (cross (r b) (v b)).
Proof. exact conserved. Qed.
Print Assumptions C50_conserved.

Example C50_example : forall t : R,
  let r t := mk3 (cos (2 * t)) (sin (2 * t)) 0 in
  let v t := mk3 (- 2 * sin (2 * t)) (2 * cos (2 * t)) 0 in
  let args := [("mu", 1); ("J2", 2); ("J3", 0); ("J4", 0); ("R_eq", 1)] in
  r t <> vzero /\ vderive r t (v t) /\
  exists a0 a2 a3 a4,
    point_mass_grav t (state (r t) [c0 (v t); c1 (v t); c2 (v t)]) args = Ok a0 /\
    j2_acc t (state (r t) [c0 (v t); c1 (v t); c2 (v t)]) args = Ok a2 /\
    j3_acc t (state (r t) [c0 (v t); c1 (v t); c2 (v t)]) args = Ok a3 /\
    j4_acc t (state (r t) [c0 (v t); c1 (v t); c2 (v t)]) args = Ok a4 /\
    vderive v t (vplus (vplus (vplus a0 a2) a3) a4).
Proof. exact circular_example. Qed.
