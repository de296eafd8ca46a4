(** * Mutants6: wrong force models, events and integrator calls, and the properties that are false of
    them (see [Mutants]) *)
From Coq Require Import Reals Lra Lia Psatz ZArith List String.
From Coquelicot Require Import Coquelicot.
From Verif Require Import Num NumR Spec SpecGrav RLib Ana TwoBody Gravity GravFacts GravMore GravExamples Cowell SpecInteg
  CowellFacts StmMore Mutants.
Import ListNotations.

Section Wrong.
  Context {T : Type} {N : Num T}.
  Local Open Scope num_scope.
  Local Open Scope string_scope.
  Definition m065_point_mass_grav (t : T) (x : list T) (args : dict) : res (V3 T) :=
    do mu <- lookup "mu" args ;;
    let mu_ := mu / norm_first3 x ** 2 in
    do x0 <- jget x 0 ;;
    do x1 <- jget x 1 ;;
    do x2 <- jget x 2 ;;
    Ok (mk3 ((- mu_) * x0) ((- mu_) * x1) ((- mu_) * x2)).
  Definition m066_j2_acc (t : T) (x : list T) (args : dict) : res (V3 T) :=
    do mu <- lookup "mu" args ;;
    do J2 <- lookup "J2" args ;;
    do R_eq <- lookup "R_eq" args ;;
    let r := norm_first3 x in
    do x2 <- jget x 2 ;;
    let zsq_over_rsq := (x2 / r) ** 2 in
    let factor := n_dec (-3) 2 * mu * J2 * R_eq ** 2 / r ** 5 in
    do x0 <- jget x 0 ;;
    let ax := factor * x0 * (#1 - #5 * zsq_over_rsq) in
    do x1 <- jget x 1 ;;
    let ay := factor * x1 * (#1 - #5 * zsq_over_rsq) in
    let az := factor * x2 * (#1 - #5 * zsq_over_rsq) in
    Ok (mk3 ax ay az).
  Definition m067_j3_acc (t : T) (x : list T) (args : dict) : res (V3 T) :=
    do mu <- lookup "mu" args ;;
    do J3 <- lookup "J3" args ;;
    do R_eq <- lookup "R_eq" args ;;
    let r := norm_first3 x in
    do x2 <- jget x 2 ;;
    let z3_over_rsq := x2 ** 3 / r ** 2 in
    let factor := n_dec (-5) 2 * mu * J3 * R_eq ** 3 / r ** 7 in
    do x0 <- jget x 0 ;;
    let ax := factor * x0 * (#3 * x2 - #7 * z3_over_rsq) in
    do x1 <- jget x 1 ;;
    let ay := factor * x1 * (#3 * x2 - #7 * z3_over_rsq) in
    let az := factor * (#6 * x2 ** 2 - #7 * z3_over_rsq * x2 - n_dec 5 3 * r ** 2) in
    Ok (mk3 ax ay az).
  Definition m068_j4_acc (t : T) (x : list T) (args : dict) : res (V3 T) :=
    do mu <- lookup "mu" args ;;
    do J4 <- lookup "J4" args ;;
    do R_eq <- lookup "R_eq" args ;;
    let r := norm_first3 x in
    do x2 <- jget x 2 ;;
    let zsq_over_rsq := (x2 / r) ** 2 in
    let factor := n_dec 15 8 * mu * J4 * R_eq ** 4 / r ** 7 in
    do x0 <- jget x 0 ;;
    let ax := factor * x0 * (#1 - #14 * zsq_over_rsq + #21 * zsq_over_rsq ** 2) in
    do x1 <- jget x 1 ;;
    let ay := factor * x1 * (#1 - #14 * zsq_over_rsq + #21 * zsq_over_rsq ** 2) in
    let az := factor * x2 * (#5 - #70 * zsq_over_rsq / #5 + #21 * zsq_over_rsq ** 2) in
    Ok (mk3 ax ay az).
  Definition m069_jget (x : list T) (i : nat) : res T :=
    match nth_error x (i) with
    | Some v => Ok v
    | None => Raise IndexError
    end.
  Definition m069_j2_acc (t : T) (x : list T) (args : dict) : res (V3 T) :=
    do mu <- lookup "mu" args ;;
    do J2 <- lookup "J2" args ;;
    do R_eq <- lookup "R_eq" args ;;
    let r := norm_first3 x in
    do x2 <- m069_jget x 2 ;;
    let zsq_over_rsq := (x2 / r) ** 2 in
    let factor := n_dec (-3) 2 * mu * J2 * R_eq ** 2 / r ** 5 in
    do x0 <- m069_jget x 0 ;;
    let ax := factor * x0 * (#1 - #5 * zsq_over_rsq) in
    do x1 <- m069_jget x 1 ;;
    let ay := factor * x1 * (#1 - #5 * zsq_over_rsq) in
    let az := factor * x2 * (#3 - #5 * zsq_over_rsq) in
    Ok (mk3 ax ay az).
  Definition m070_radius_islow (t : T) (x : list T) (args : dict) : res T :=
    do rmin <- lookup "rmin" args ;;
    Ok (rmin - norm_first3 x).
  Definition m071_j2_default : dict := [("mu", n_dec 1 1); ("J2", n_dec 1 1); ("R_eq", n_dec 1 1)].
  Definition m072_norm_first3 (x : list T) : T := n_sqrt (sumsq (x)).
  Definition m072_point_mass_grav (t : T) (x : list T) (args : dict) : res (V3 T) :=
    do mu <- lookup "mu" args ;;
    let mu_ := mu / m072_norm_first3 x ** 3 in
    do x0 <- jget x 0 ;;
    do x1 <- jget x 1 ;;
    do x2 <- jget x 2 ;;
    Ok (mk3 ((- mu_) * x0) ((- mu_) * x1) ((- mu_) * x2)).
  Definition m073_fixed_steps (orbdyn : orbdynx) (x0 : list T) (t1 dt : T)
    (max_steps : option (option Z)) (sv : option solver) : prog :=
    Solve {| k_terms := od_terms orbdyn; k_solver := given sv default_solver;
             k_t0 := n_Z 0; k_t1 := t1; k_dt0 := None; k_y0 := x0;
             k_args := od_args orbdyn; k_max_steps := given max_steps (Some 4096%Z);
             k_controller := ConstantStepSize;
             k_saveat := mkSave true false None true false;
             k_event := od_event orbdyn |} Ret.
  Definition m074_custom_steps (orbdyn : orbdynx) (x0 : list T) (t1 : T) (ts : list T)
    (sv : option solver) (sc : option controller) : prog :=
    Solve {| k_terms := od_terms orbdyn; k_solver := given sv default_solver;
             k_t0 := n_Z 0; k_t1 := t1; k_dt0 := None; k_y0 := x0;
             k_args := od_args orbdyn; k_max_steps := None;
             k_controller := given sc default_controller;
             k_saveat := mkSave false true (Some ts) false false;
             k_event := od_event orbdyn |} Ret.
  Definition m075_to_final (orbdyn : orbdynx) (x0 : list T) (t1 : T)
    (sv : option solver) (sc : option controller) : prog :=
    Solve {| k_terms := od_terms orbdyn; k_solver := given sv default_solver;
             k_t0 := n_Z 0; k_t1 := t1; k_dt0 := None; k_y0 := x0;
             k_args := [("mu", n_dec 1 1)]; k_max_steps := Some 4096%Z;
             k_controller := given sc default_controller;
             k_saveat := mkSave false true None false false;
             k_event := od_event orbdyn |} Ret.
  Definition m076_j2_field : field := fun t x args =>
    do acc <- point_mass_grav t x args ;;
    do acc2 <- j2_acc t x args ;;
    let a := acc in
    Ok (skipn 3 x ++ [c0 a; c1 a; c2 a])%list.
End Wrong.
Local Open Scope R_scope.
Local Open Scope string_scope.

Lemma gradient_unique U q g g' : gradient U q g -> gradient U q g' -> g = g'.
Proof.
  intros A B.
  assert (D : forall w, dot g w = dot g' w).
  { intro w.
    assert (V : vderive (fun s : R => vplus q (smul s w)) 0 w).
    { unfold vplus, smul. split; [|split]; cbn [c0 c1 c2]; auto_derive; auto; ring. }
    assert (E : vplus q (smul 0 w) = q) by (destruct q as [x y z]; unfold vplus, smul; cbn [c0 c1 c2]; apply mk3_eq; ring).
    rewrite <- (is_derive_unique _ _ _ (A _ _ _ E V)). exact (is_derive_unique _ _ _ (B _ _ _ E V)). }
  destruct g as [a b c], g' as [a' b' c'].
  pose proof (D (mk3 1 0 0)) as D0. pose proof (D (mk3 0 1 0)) as D1. pose proof (D (mk3 0 0 1)) as D2.
  unfold dot in *. cbn [c0 c1 c2] in *. apply mk3_eq; lra.
Qed.
Lemma n2 : vnorm (mk3 0 0 2) = 2.
Proof. apply vnorm_unique; [lra|]. unfold dot; cbn [c0 c1 c2]. ring. Qed.
Lemma nz2 : mk3 0 0 2 <> vzero.
Proof. apply vnorm_neq. rewrite n2. lra. Qed.
Lemma nz345 : mk3 3 0 4 <> vzero.
Proof. apply vnorm_neq. rewrite n345. lra. Qed.
Definition ones (j : string) : list (string * R) := [("mu", 1); (j, 1); ("R_eq", 1)].
Lemma p6 x : npow x 6 = x ^ 6. Proof. unnum. ring. Qed.

Lemma m065_C39_inverse_square : ~ (forall (t : R) (q : vec) (rest : list R) (args : list (string * R)) (mu : R) (g : vec),
  q <> vzero -> get "mu" args = Some mu ->
  m065_point_mass_grav t (state q rest) args = Ok g ->
  g = smul (- (mu / vnorm q ^ 3)) q /\ vnorm g = Rabs mu / vnorm q ^ 2).
Proof.
  intro H. destruct (H 0 (mk3 0 0 2) [] [("mu", 1)] 1 _ nz2 eq_refl eq_refl) as [A _]. revert A.
  unfold smul. rewrite (norm_state (mk3 0 0 2) []), n2. cbn [c0 c1 c2]. intro A. apply (f_equal c2) in A. revert A. unnum. cbn [c2]. lra.
Qed.

Lemma m066_C40_gradient_j2 : ~ (forall (t : R) (q : vec) (rest : list R) (args : list (string * R)) (mu J Req : R) (g : vec),
  q <> vzero -> (get "mu" args = Some mu /\ get "J2" args = Some J /\ get "R_eq" args = Some Req) ->
  m066_j2_acc t (state q rest) args = Ok g ->
  gradient (fun x => - (mu * J * Req ^ 2 * legendre 2 (c2 x / vnorm x) / vnorm x ^ 3)) q g).
Proof.
  intro H.
  pose proof (H 0 (mk3 3 0 4) [] (ones "J2") 1 1 1 _ nz345 (conj eq_refl (conj eq_refl eq_refl)) eq_refl) as A.
  pose proof (gradient_j2 0 (mk3 3 0 4) [] (ones "J2") 1 1 1 _ nz345 (conj eq_refl (conj eq_refl eq_refl)) (j2_R 0 (mk3 3 0 4) [] (ones "J2") 1 1 1 eq_refl eq_refl eq_refl)) as B.
  pose proof (f_equal c2 (gradient_unique _ _ _ _ A B)) as E. clear A B H. revert E. unfold j2R.
  rewrite !norm_state, !n345.
  cbv [c0 c1 c2]. unnum. lra.
Qed.

Lemma m067_C40_gradient_j3 : ~ (forall (t : R) (q : vec) (rest : list R) (args : list (string * R)) (mu J Req : R) (g : vec),
  q <> vzero -> (get "mu" args = Some mu /\ get "J3" args = Some J /\ get "R_eq" args = Some Req) ->
  m067_j3_acc t (state q rest) args = Ok g ->
  gradient (fun x => - (mu * J * Req ^ 3 * legendre 3 (c2 x / vnorm x) / vnorm x ^ 4)) q g).
Proof.
  intro H.
  pose proof (H 0 (mk3 3 0 4) [] (ones "J3") 1 1 1 _ nz345 (conj eq_refl (conj eq_refl eq_refl)) eq_refl) as A.
  pose proof (gradient_j3 0 (mk3 3 0 4) [] (ones "J3") 1 1 1 _ nz345 (conj eq_refl (conj eq_refl eq_refl)) (j3_R 0 (mk3 3 0 4) [] (ones "J3") 1 1 1 eq_refl eq_refl eq_refl)) as B.
  pose proof (f_equal c2 (gradient_unique _ _ _ _ A B)) as E. clear A B H. revert E. unfold j3R.
  rewrite !norm_state, !n345.
  cbv [c0 c1 c2]. unnum. lra.
Qed.

Lemma m068_C40_gradient_j4 : ~ (forall (t : R) (q : vec) (rest : list R) (args : list (string * R)) (mu J Req : R) (g : vec),
  q <> vzero -> (get "mu" args = Some mu /\ get "J4" args = Some J /\ get "R_eq" args = Some Req) ->
  m068_j4_acc t (state q rest) args = Ok g ->
  gradient (fun x => - (mu * J * Req ^ 4 * legendre 4 (c2 x / vnorm x) / vnorm x ^ 5)) q g).
Proof.
  intro H.
  pose proof (H 0 (mk3 3 0 4) [] (ones "J4") 1 1 1 _ nz345 (conj eq_refl (conj eq_refl eq_refl)) eq_refl) as A.
  pose proof (gradient_j4 0 (mk3 3 0 4) [] (ones "J4") 1 1 1 _ nz345 (conj eq_refl (conj eq_refl eq_refl)) (j4_R 0 (mk3 3 0 4) [] (ones "J4") 1 1 1 eq_refl eq_refl eq_refl)) as B.
  pose proof (f_equal c2 (gradient_unique _ _ _ _ A B)) as E. clear A B H. revert E. unfold j4R.
  rewrite !norm_state, !n345.
  cbv [c0 c1 c2]. unnum. lra.
Qed.

Lemma m069_C42_errors : ~ (forall (T : Type) (N : Num T) (t : T) (x : list T) (args : list (string * T)),
  x <> [] ->
  let outcome (A : Type) (ks : list string) (m : res A) :=
    match find (missing args) ks with
    | Some k => m = Raise (KeyError k)
    | None => exists a, m = Ok a
    end in
  outcome _ ["mu"] (point_mass_grav t x args) /\
  outcome _ ["mu"; "J2"; "R_eq"] (m069_j2_acc t x args) /\
  outcome _ ["mu"; "J3"; "R_eq"] (j3_acc t x args) /\
  outcome _ ["mu"; "J4"; "R_eq"] (j4_acc t x args) /\
  outcome _ ["rmin"] (radius_islow t x args)).
Proof.
  intro H. destruct (H R Num_R 0 [3] (ones "J2") ltac:(discriminate)) as (_ & A & _). destruct A as [a A]. discriminate A.
Qed.

Lemma m070_C43_sign : ~ (forall (t : R) (q : vec) (rest : list R) (args : list (string * R)) (rmin f : R),
  get "rmin" args = Some rmin -> m070_radius_islow t (state q rest) args = Ok f ->
  (f < 0 <-> vnorm q < rmin) /\ (f = 0 <-> vnorm q = rmin) /\ (0 < f <-> rmin < vnorm q)).
Proof.
  intro H. destruct (H 0 (mk3 0 0 2) [] [("rmin", 1)] 1 _ eq_refl eq_refl) as (A & _).
  revert A. rewrite (norm_state (mk3 0 0 2) []), n2. unnum. lra.
Qed.

Lemma m071_C42_defaults : ~ (forall (t : R) (q : vec) (rest : list R),
  point_mass_grav t (state q rest) pm_default = Ok (gravity 1 q) /\
  j2_acc t (state q rest) m071_j2_default = Ok vzero /\
  j3_acc t (state q rest) j3_default = Ok vzero /\
  j4_acc t (state q rest) j4_default = Ok vzero /\
  radius_islow t (state q rest) radius_default = Ok (vnorm q)).
Proof.
  intro H. destruct (H 0 (mk3 3 0 4) []) as (_ & A & _). rewrite (j2_R _ _ _ _ (1 / 1) (1 / 1) (1 / 1)) in A by reflexivity.
  apply ok_inj, (f_equal c0) in A. revert A. unfold j2R, vzero. rewrite n345. cbn [c0 c1 c2]. lra.
Qed.

Lemma m072_C42_reads : ~ (forall (T : Type) (N : Num T) (t t' : T) (x x' : list T) (args args' : list (string * T)),
  (3 <= List.length x)%nat -> firstn 3 x = firstn 3 x' ->
  let same ks := forall k, In k ks -> get k args = get k args' in
  (same ["mu"] -> m072_point_mass_grav t x args = m072_point_mass_grav t' x' args') /\
  (same ["mu"; "J2"; "R_eq"] -> j2_acc t x args = j2_acc t' x' args') /\
  (same ["mu"; "J3"; "R_eq"] -> j3_acc t x args = j3_acc t' x' args') /\
  (same ["mu"; "J4"; "R_eq"] -> j4_acc t x args = j4_acc t' x' args') /\
  (same ["rmin"] -> radius_islow t x args = radius_islow t' x' args')).
Proof.
  intro H. destruct (H R Num_R 0 0 [2; 0; 0; 0] [2; 0; 0; sqrt 12] [("mu", 1)] [("mu", 1)] ltac:(cbn; lia) eq_refl) as (A & _).
  specialize (A ltac:(intros k _; reflexivity)). apply ok_inj, (f_equal c0) in A. revert A.
  unfold m072_norm_first3. cbn [sumsq fold_left]. rewrite !p3. unnum. cbn [c0].
  rewrite sqrt_sqrt by lra. replace (2 * 2 + 0 * 0 + 0 * 0 + 0 * 0) with (2 * 2) by ring. replace (2 * 2 + 0 * 0 + 0 * 0 + 12) with (4 * 4) by ring.
  rewrite !sqrt_square by lra. lra.
Qed.

Lemma m073_C44_forward : ~ (forall (T : Type) (N : Num T) (d : @orbdynx T) (x0 : list T) (t1 dt : T) (ts : list T)
    (sa : saveat) (dt0 : option (option T)) (ms : option (option Z)) (sv : option solver) (sc : option controller),
  (exists c, one_call (cowell_method d x0 t1 sa dt0 ms sv sc) c /\ same_problem d x0 t1 c /\
     k_saveat c = sa /\ k_dt0 c = given dt0 None /\ k_max_steps c = given ms (Some 4096%Z) /\
     k_solver c = given sv Tsit5 /\ k_controller c = given sc (PIDController (n_dec 1 100000000) (n_dec 1 100000000))) /\
  (exists c, one_call (m073_fixed_steps d x0 t1 dt ms sv) c /\ same_problem d x0 t1 c /\
     k_dt0 c = Some dt /\ k_controller c = ConstantStepSize /\ k_max_steps c = given ms (Some 4096%Z) /\
     k_solver c = given sv Tsit5 /\ k_saveat c = mkSave true false None true false) /\
  (exists c, one_call (adaptive_steps d x0 t1 ms sv sc) c /\ same_problem d x0 t1 c /\
     k_controller c = given sc (PIDController (n_dec 1 100000000) (n_dec 1 100000000)) /\
     k_max_steps c = given ms (Some 4096%Z) /\ k_solver c = given sv Tsit5 /\ k_saveat c = mkSave true false None true false) /\
  (exists c, one_call (custom_steps d x0 t1 ts sv sc) c /\ same_problem d x0 t1 c /\
     k_saveat c = mkSave false false (Some ts) false false /\ k_max_steps c = None /\ k_solver c = given sv Tsit5 /\
     k_controller c = given sc (PIDController (n_dec 1 100000000) (n_dec 1 100000000))) /\
  (exists c, one_call (to_final d x0 t1 sv sc) c /\ same_problem d x0 t1 c /\
     k_saveat c = mkSave false true None false false /\ k_max_steps c = Some 4096%Z /\ k_solver c = given sv Tsit5 /\
     k_controller c = given sc (PIDController (n_dec 1 100000000) (n_dec 1 100000000)))).
Proof.
  intro H. destruct (H R Num_R (mkOrb point_mass_field [] None) [] 1 1 [] (mkSave false true None false false) None None None None)
    as (_ & A & _ & B & C). destruct A as (c & Q & _ & E & _). specialize (Q (fun _ => None)). cbn in Q. injection Q as <-. discriminate.
Qed.

Lemma m074_C44_forward : ~ (forall (T : Type) (N : Num T) (d : @orbdynx T) (x0 : list T) (t1 dt : T) (ts : list T)
    (sa : saveat) (dt0 : option (option T)) (ms : option (option Z)) (sv : option solver) (sc : option controller),
  (exists c, one_call (cowell_method d x0 t1 sa dt0 ms sv sc) c /\ same_problem d x0 t1 c /\
     k_saveat c = sa /\ k_dt0 c = given dt0 None /\ k_max_steps c = given ms (Some 4096%Z) /\
     k_solver c = given sv Tsit5 /\ k_controller c = given sc (PIDController (n_dec 1 100000000) (n_dec 1 100000000))) /\
  (exists c, one_call (fixed_steps d x0 t1 dt ms sv) c /\ same_problem d x0 t1 c /\
     k_dt0 c = Some dt /\ k_controller c = ConstantStepSize /\ k_max_steps c = given ms (Some 4096%Z) /\
     k_solver c = given sv Tsit5 /\ k_saveat c = mkSave true false None true false) /\
  (exists c, one_call (adaptive_steps d x0 t1 ms sv sc) c /\ same_problem d x0 t1 c /\
     k_controller c = given sc (PIDController (n_dec 1 100000000) (n_dec 1 100000000)) /\
     k_max_steps c = given ms (Some 4096%Z) /\ k_solver c = given sv Tsit5 /\ k_saveat c = mkSave true false None true false) /\
  (exists c, one_call (m074_custom_steps d x0 t1 ts sv sc) c /\ same_problem d x0 t1 c /\
     k_saveat c = mkSave false false (Some ts) false false /\ k_max_steps c = None /\ k_solver c = given sv Tsit5 /\
     k_controller c = given sc (PIDController (n_dec 1 100000000) (n_dec 1 100000000))) /\
  (exists c, one_call (to_final d x0 t1 sv sc) c /\ same_problem d x0 t1 c /\
     k_saveat c = mkSave false true None false false /\ k_max_steps c = Some 4096%Z /\ k_solver c = given sv Tsit5 /\
     k_controller c = given sc (PIDController (n_dec 1 100000000) (n_dec 1 100000000)))).
Proof.
  intro H. destruct (H R Num_R (mkOrb point_mass_field [] None) [] 1 1 [] (mkSave false true None false false) None None None None)
    as (_ & A & _ & B & C). destruct B as (c & Q & _ & E & _). specialize (Q (fun _ => None)). cbn in Q. injection Q as <-. discriminate.
Qed.

Lemma m075_C44_forward : ~ (forall (T : Type) (N : Num T) (d : @orbdynx T) (x0 : list T) (t1 dt : T) (ts : list T)
    (sa : saveat) (dt0 : option (option T)) (ms : option (option Z)) (sv : option solver) (sc : option controller),
  (exists c, one_call (cowell_method d x0 t1 sa dt0 ms sv sc) c /\ same_problem d x0 t1 c /\
     k_saveat c = sa /\ k_dt0 c = given dt0 None /\ k_max_steps c = given ms (Some 4096%Z) /\
     k_solver c = given sv Tsit5 /\ k_controller c = given sc (PIDController (n_dec 1 100000000) (n_dec 1 100000000))) /\
  (exists c, one_call (fixed_steps d x0 t1 dt ms sv) c /\ same_problem d x0 t1 c /\
     k_dt0 c = Some dt /\ k_controller c = ConstantStepSize /\ k_max_steps c = given ms (Some 4096%Z) /\
     k_solver c = given sv Tsit5 /\ k_saveat c = mkSave true false None true false) /\
  (exists c, one_call (adaptive_steps d x0 t1 ms sv sc) c /\ same_problem d x0 t1 c /\
     k_controller c = given sc (PIDController (n_dec 1 100000000) (n_dec 1 100000000)) /\
     k_max_steps c = given ms (Some 4096%Z) /\ k_solver c = given sv Tsit5 /\ k_saveat c = mkSave true false None true false) /\
  (exists c, one_call (custom_steps d x0 t1 ts sv sc) c /\ same_problem d x0 t1 c /\
     k_saveat c = mkSave false false (Some ts) false false /\ k_max_steps c = None /\ k_solver c = given sv Tsit5 /\
     k_controller c = given sc (PIDController (n_dec 1 100000000) (n_dec 1 100000000))) /\
  (exists c, one_call (m075_to_final d x0 t1 sv sc) c /\ same_problem d x0 t1 c /\
     k_saveat c = mkSave false true None false false /\ k_max_steps c = Some 4096%Z /\ k_solver c = given sv Tsit5 /\
     k_controller c = given sc (PIDController (n_dec 1 100000000) (n_dec 1 100000000)))).
Proof.
  intro H. destruct (H R Num_R (mkOrb point_mass_field [] None) [] 1 1 [] (mkSave false true None false false) None None None None)
    as (_ & A & _ & B & C). destruct C as (c & Q & (_ & E & _) & _). specialize (Q (fun _ => None)). cbn in Q. injection Q as <-. discriminate.
Qed.

Lemma m076_C44_j2_field_conserves : ~ (forall (c : @call R) (mu J Req : R) (r v : R -> vec),
  k_terms c = m076_j2_field -> get "mu" (k_args c) = Some mu -> get "J2" (k_args c) = Some J -> get "R_eq" (k_args c) = Some Req ->
  solves c (fun t => six (r t, v t)) -> (forall s, between (k_t0 c) (k_t1 c) s -> r s <> vzero) ->
  forall s s', between (k_t0 c) (k_t1 c) s -> between (k_t0 c) (k_t1 c) s' ->
  dot (v s) (v s) / 2 - (kepler_potential mu (r s) + zonal 2 mu J Req (r s))
   = dot (v s') (v s') / 2 - (kepler_potential mu (r s') + zonal 2 mu J Req (r s')) /\
  c2 (cross (r s) (v s)) = c2 (cross (r s') (v s'))).
Proof.
  intro H.
  set (r := fun t : R => mk3 (cos t) 0 (sin t)). set (v := fun t : R => mk3 (- sin t) 0 (cos t)).
  assert (NR : forall t, vnorm (r t) = 1).
  { intro t. apply vnorm_unique; [lra|]. unfold dot, r; cbn [c0 c1 c2]. pose proof (sin2_cos2 t) as E. unfold Rsqr in E. lra. }
  set (c := mkCall m076_j2_field Tsit5 0 (PI / 2) None (six (r 0, v 0)) (ones "J2") None ConstantStepSize (mkSave false true None false false) None).
  assert (S : solves c (fun t => six (r t, v t))).
  { split; [reflexivity|]. intros s _. exists (six (v s, gravity 1 (r s))). split.
    - change (k_terms c) with (@m076_j2_field R Num_R). change (k_args c) with (ones "J2"). unfold m076_j2_field.
      rewrite six_state, (pm_R _ _ _ _ 1), (j2_R _ _ _ _ 1 1 1) by reflexivity. reflexivity.
    - apply six_derive; unfold gravity; rewrite ?NR; unfold r, v, smul; (split; [|split]); cbn [c0 c1 c2]; auto_derive; auto; field. }
  destruct (H c 1 1 1 r v eq_refl eq_refl eq_refl eq_refl S ltac:(intros; apply vnorm_neq; rewrite NR; lra) 0 (PI / 2)) as [E _];
    pose proof PI_RGT_0; unfold between; cbn [k_t0 k_t1 c].
  1, 2 : rewrite Rmin_left, Rmax_right by lra; lra.
  revert E. rewrite !zonal_2 by (apply vnorm_neq; rewrite NR; lra). unfold kepler_potential. rewrite !NR.
  unfold dot, r, v. cbn [c0 c1 c2]. rewrite sin_0, cos_0, sin_PI2, cos_PI2. lra.
Qed.
