(** * CowellFacts: the Cowell wrappers (proofs for C44) and conserved quantities of the fields (C53) *)
From Coq Require Import Reals Lra Lia Psatz ZArith List String.
From Coquelicot Require Import Coquelicot.
From Verif Require Import Num NumR Spec SpecGrav RLib Ana OrbIntegrals Uniformulas KepEqu StateTrans PathCheck PropKepler
  Gravity Cowell SpecInteg OrbFacts KepState KepMotion TwoBody KepRows LoopFacts GravFacts GravMore PathFacts Equi EquiExamples.
Import ListNotations.
Local Open Scope R_scope.

(** ** One call, for every arithmetic *)
Section Calls.
  Context {T : Type} {N : Num T}.
  Lemma one (c : @call T) : one_call (Solve c Ret) c.
  Proof. intros integ. cbn [run]. destruct (integ c); reflexivity. Qed.
  Lemma one_unique (p : @prog T) c c' : one_call p c -> one_call p c' -> c = c'.
  Proof. intros H H'. specialize (H (fun _ => None)). specialize (H' (fun _ => None)). congruence. Qed.

  Lemma all_forward d x0 t1 dt ts sa dt0 ms sv sc :
    (exists c, one_call (cowell_method d x0 t1 sa dt0 ms sv sc) c /\ same_problem d x0 t1 c /\
       k_saveat c = sa /\ k_dt0 c = given dt0 None /\ k_max_steps c = given ms (Some 4096%Z) /\
       k_solver c = given sv Tsit5 /\ k_controller c = given sc (PIDController (n_dec 1 100000000) (n_dec 1 100000000))) /\
    (exists c, one_call (fixed_steps d x0 t1 dt ms sv) c /\ same_problem d x0 t1 c /\
       k_dt0 c = Some dt /\ k_controller c = ConstantStepSize /\ k_max_steps c = given ms (Some 4096%Z) /\
       k_solver c = given sv Tsit5 /\ k_saveat c = mkSave true false None true false) /\
    (exists c, one_call (adaptive_steps d x0 t1 ms sv sc) c /\ same_problem d x0 t1 c /\
       k_controller c = given sc (PIDController (n_dec 1 100000000) (n_dec 1 100000000)) /\
       k_max_steps c = given ms (Some 4096%Z) /\ k_solver c = given sv Tsit5 /\ k_saveat c = mkSave true false None true false) /\
    (exists c, one_call (custom_steps d x0 t1 ts sv sc) c /\ same_problem d x0 t1 c /\
       k_saveat c = mkSave false false (Some ts) false false /\ k_max_steps c = None /\ k_solver c = given sv Tsit5 /\
       k_controller c = given sc (PIDController (n_dec 1 100000000) (n_dec 1 100000000))) /\
    (exists c, one_call (to_final d x0 t1 sv sc) c /\ same_problem d x0 t1 c /\
       k_saveat c = mkSave false true None false false /\ k_max_steps c = Some 4096%Z /\ k_solver c = given sv Tsit5 /\
       k_controller c = given sc (PIDController (n_dec 1 100000000) (n_dec 1 100000000))).
  Proof.
    split; [|split; [|split; [|split]]]; (eexists; split; [apply one|]; split; [now repeat split|]; now repeat split).
  Qed.
  (** The specialised wrappers are [cowell_method] with the documented settings. *)
  Lemma specialise d x0 t1 dt ts ms sv sc :
    fixed_steps d x0 t1 dt ms sv
      = cowell_method d x0 t1 (mkSave true false None true false) (Some (Some dt)) ms sv (Some ConstantStepSize) /\
    adaptive_steps d x0 t1 ms sv sc
      = cowell_method d x0 t1 (mkSave true false None true false) None ms sv sc /\
    custom_steps d x0 t1 ts sv sc
      = cowell_method d x0 t1 (mkSave false false (Some ts) false false) None (Some None) sv sc /\
    to_final d x0 t1 sv sc
      = cowell_method d x0 t1 (mkSave false true None false false) None None sv sc.
  Proof. repeat split. Qed.
  Lemma step_docstring d x0 t1 ms sv sc c :
    one_call (adaptive_steps d x0 t1 ms sv sc) c -> k_dt0 c = None.
  Proof. intros H. pose proof (one_unique _ _ _ H (one _)) as ->. reflexivity. Qed.
End Calls.

(** ** Acceptable calls *)
Lemma accept_lemma d x0 t1 dt (ts : list R) (ms : option (option Z)) sv sc c :
  (one_call (fixed_steps d x0 t1 dt ms sv) c -> (acceptable c <-> ms <> Some None /\ 0 <= t1 * dt)) /\
  (one_call (adaptive_steps d x0 t1 ms sv sc) c ->
     (acceptable c <-> ms <> Some None /\ ~ (exists k, sc = Some k /\ constant_step k))) /\
  (one_call (custom_steps d x0 t1 ts sv sc) c ->
     (acceptable c <-> ~ (exists k, sc = Some k /\ constant_step k))) /\
  (one_call (to_final d x0 t1 sv sc) c ->
     (acceptable c <-> ~ (exists k, sc = Some k /\ constant_step k))).
Proof.
  assert (C : constant_step (given sc (@default_controller R Num_R)) <-> exists k, sc = Some k /\ constant_step k).
  { destruct sc as [k|]; cbn [given].
    - split; [eauto|]. intros [k' [E H]]. congruence.
    - split; [contradiction|]. intros [k' [E _]]. discriminate. }
  assert (M : given ms (Some 4096%Z) <> None <-> ms <> Some None).
  { destruct ms as [[m|]|]; cbn [given]; split; congruence. }
  split; [|split; [|split]]; intros H; pose proof (one_unique _ _ _ H (one _)) as ->; clear H;
    unfold acceptable; cbn [k_controller k_dt0 k_saveat k_max_steps k_t1 k_t0 sa_steps sa_dense n_Z Num_R].
  - split.
    + intros [_ [A B]]. split; [tauto|]. specialize (B dt eq_refl). unfold n_Z in B. cbn in B. lra.
    + intros [A B]. split; [discriminate|]. split; [tauto|]. intros dt' [= <-]. unfold n_Z; cbn. lra.
  - rewrite C. split.
    + intros [A [B _]]. split; [tauto|]. intros K. now apply A.
    + intros [A B]. split; [tauto|]. split; [tauto|discriminate].
  - rewrite C. split.
    + intros [A [B _]] K. now apply A.
    + intros A. split; [tauto|]. split; [intros [K|K]; discriminate|discriminate].
  - rewrite C. split.
    + intros [A [B _]] K. now apply A.
    + intros A. split; [tauto|]. split; [discriminate|discriminate].
Qed.

(** ** The point-mass field along a motion *)
Lemma six_state x : six x = state (fst x) [c0 (snd x); c1 (snd x); c2 (snd x)].
Proof. reflexivity. Qed.
Lemma field_pm t r v args mu : get "mu" args = Some mu ->
  point_mass_field t (six (r, v)) args = Ok (six (v, gravity mu r)).
Proof. intros H. unfold point_mass_field. rewrite six_state. cbn [fst snd]. rewrite (pm_R _ _ _ _ mu H). reflexivity. Qed.
Lemma six_derive (r v : R -> vec) (s : R) (a b : vec) : vderive r s a -> vderive v s b ->
  lderive (fun t => six (r t, v t)) s (six (a, b)).
Proof.
  intros [A0 [A1 A2]] [B0 [B1 B2]]. split; [reflexivity|]. intros i Hi. unfold six in *. cbn [fst snd List.length] in *.
  do 6 (destruct i as [|i]; [cbn [nth]; assumption|]). lia.
Qed.
Section Motion.
  Variables (mu : R) (r v : R -> vec).
  Hypothesis Hm : two_body_motion mu r v.
  Let y : R -> list R := fun t => six (r t, v t).
  Lemma motion_solves c : k_terms c = point_mass_field -> get "mu" (k_args c) = Some mu -> k_t0 c = 0 ->
    k_y0 c = six (r 0, v 0) -> solves c y.
  Proof using Hm.
    intros Ht Ha H0 Hy. split; [rewrite H0, Hy; reflexivity|]. intros s _. rewrite Ht.
    exists (six (v s, gravity mu (r s))). split; [now apply field_pm|].
    destruct (Hm s) as [_ [A B]]. now apply six_derive.
  Qed.
  Lemma motion_silent c rmin : 0 < mu -> cross (r 0) (v 0) <> vzero ->
    k_event c = None \/
    (k_event c = Some radius_islow /\ get "rmin" (k_args c) = Some rmin /\
     exists rm, rmin < rm /\ rp_islower_rmin rm (r 0) (v 0) mu = false) -> silent c y.
  Proof using Hm.
    intros Hmu Hh [E|[E [G [rm [L F]]]]]; unfold silent; rewrite E; [exact I|].
    intros s _. exists (vnorm (r s) - rmin). unfold y. rewrite six_state. cbn [fst snd]. split; [now apply radius_R|].
    destruct (Rlt_dec rmin (vnorm (r s))) as [|K]; [lra|]. exfalso.
    assert (Q : rp_islower_rmin rm (r 0) (v 0) mu = true).
    { apply low_motion; auto. exists s, (r s), (v s). split; [|lra]. exists r, v. auto. }
    congruence.
  Qed.

  Lemma call_follows d x0 t1 c eps integ s : 0 < mu -> cross (r 0) (v 0) <> vzero ->
    kepler_problem mu r v d x0 -> follows eps integ y -> integ c = Some s -> same_problem d x0 t1 c ->
    times_asked c (sol_ts s) /\ Forall2 (fun t x => near eps x (y t)) (sol_ts s) (sol_ys s).
  Proof using Hm.
    intros Hmu Hh [K1 [K2 [K3 K4]]] F I [S1 [S2 [S3 [S4 [S5 S6]]]]]. apply F; [| |exact I].
    - apply motion_solves; [congruence|congruence|exact S5|congruence].
    - destruct K4 as [E|[E [rmin [rm [G [L Q]]]]]].
      + apply (motion_silent c 0); auto. left. congruence.
      + apply (motion_silent c rmin); auto. right. split; [congruence|]. split; [congruence|]. eauto.
  Qed.
  Lemma run_one p c integ (s : @solution R) l : one_call p c -> run integ p = (Some s, l) -> integ c = Some s /\ l = [c].
  Proof using. intros H E. rewrite H in E. injection E. auto. Qed.

  Section Run.
    Variables (d : @orbdynx R) (x0 : list R) (t1 eps : R) (integ : @call R -> option (@solution R)) (s : @solution R) (l : list (@call R)).
    Hypotheses (Hmu : 0 < mu) (Hh : cross (r 0) (v 0) <> vzero) (Hk : kepler_problem mu r v d x0) (Hf : follows eps integ y).

    Lemma final_row sv sc : run integ (to_final d x0 t1 sv sc) = (Some s, l) ->
      sol_ts s = [t1] /\ exists x, sol_ys s = [x] /\ near eps x (six (r t1, v t1)).
    Proof using All.
      intros E. destruct (run_one _ _ _ _ _ (one _) E) as [I _].
      destruct (call_follows d x0 t1 _ eps integ s Hmu Hh Hk Hf I (conj eq_refl (conj eq_refl (conj eq_refl (conj eq_refl (conj eq_refl eq_refl)))))) as [T F].
      destruct T as [T _]. specialize (T eq_refl eq_refl eq_refl eq_refl). cbn in T. split; [exact T|]. rewrite T in F.
      inversion F as [|? ? ? ? N1 N2]; subst. inversion N2; subst. eauto.
    Qed.
    Lemma custom_rows ts sv sc : run integ (custom_steps d x0 t1 ts sv sc) = (Some s, l) ->
      sol_ts s = ts /\ Forall2 (fun t x => near eps x (six (r t, v t))) ts (sol_ys s).
    Proof using All.
      intros E. destruct (run_one _ _ _ _ _ (one _) E) as [I _].
      destruct (call_follows d x0 t1 _ eps integ s Hmu Hh Hk Hf I (conj eq_refl (conj eq_refl (conj eq_refl (conj eq_refl (conj eq_refl eq_refl)))))) as [T F].
      destruct T as [_ [T _]]. specialize (T ts eq_refl eq_refl eq_refl eq_refl). split; [exact T|]. now rewrite T in F.
    Qed.
    Lemma step_rows dt ms sv sc :
      run integ (fixed_steps d x0 t1 dt ms sv) = (Some s, l) \/ run integ (adaptive_steps d x0 t1 ms sv sc) = (Some s, l) ->
      hd_error (sol_ts s) = Some 0 /\ last (sol_ts s) 0 = t1 /\
      Forall2 (fun t x => near eps x (six (r t, v t))) (sol_ts s) (sol_ys s).
    Proof using All.
      intros [E|E]; destruct (run_one _ _ _ _ _ (one _) E) as [I _];
      destruct (call_follows d x0 t1 _ eps integ s Hmu Hh Hk Hf I (conj eq_refl (conj eq_refl (conj eq_refl (conj eq_refl (conj eq_refl eq_refl)))))) as [T F];
      destruct T as [_ [_ T]]; specialize (T eq_refl eq_refl eq_refl); cbn in T;
      destruct T as [A [B _]]; (split; [exact A|]; split; [exact B|exact F]).
    Qed.
  End Run.
End Motion.

(** ** Comparison with [kepler] *)
Lemma comp_le_norm (a b : vec) : Rabs (c0 a - c0 b) <= vnorm (vminus a b) /\
  Rabs (c1 a - c1 b) <= vnorm (vminus a b) /\ Rabs (c2 a - c2 b) <= vnorm (vminus a b).
Proof.
  assert (Q : forall x w, x * x <= dot w w -> Rabs x <= vnorm w).
  { intros x w H. unfold vnorm. rewrite <- sqrt_Rsqr_abs. apply sqrt_le_1_alt. exact H. }
  pose proof (Rle_0_sqr (c0 a - c0 b)) as S0. pose proof (Rle_0_sqr (c1 a - c1 b)) as S1. pose proof (Rle_0_sqr (c2 a - c2 b)) as S2.
  unfold Rsqr in S0, S1, S2. split; [|split]; apply Q; unfold dot, vminus; cbn [c0 c1 c2]; lra.
Qed.
Lemma agree_with_kepler mu r0 v0 t eps tol x : 0 < mu -> cross r0 v0 <> vzero ->
  let alpha := alpha_of (vnorm r0) (vnorm v0) mu in
  let chi := solve_kepler_uni t alpha (vnorm r0) (sigma_fn r0 v0 mu) mu default_tol uni_max_iter in
  let p := semiparameter (vnorm (angular_momentum r0 v0)) mu in
  let e := vnorm (eccentricity_vector r0 v0 mu) in
  forall r v, two_body_motion mu r v -> r 0 = r0 -> v 0 = v0 ->
  near eps x (six (r t, v t)) ->
  Rabs (kepler_equ_uni chi alpha (vnorm r0) (sigma_fn r0 v0 mu) t mu) <= tol ->
  exists rk vk, kepler [t] r0 v0 mu = [(rk, vk)] /\
    let b := eps + sqrt (mu / p) * (1 + e) * (tol / sqrt mu) in
    Rabs (nth 0 x 0 - c0 rk) <= b /\ Rabs (nth 1 x 0 - c1 rk) <= b /\ Rabs (nth 2 x 0 - c2 rk) <= b.
Proof.
  intros Hmu Hh alpha chi p e r v Hm Hr Hv [_ Nx] Ht.
  assert (K : exists rk vk, kepler [t] r0 v0 mu = [(rk, vk)]).
  { rewrite kepler_map. cbn [map]. destruct (kepler1 t r0 v0 mu) as [rk vk]. eauto. }
  destruct K as [rk [vk K]]. exists rk, vk. split; [exact K|].
  pose proof (row_error r0 v0 mu Hmu Hh r v Hm Hr Hv [t] 0%nat t tol rk vk) as E. cbv zeta in E.
  specialize (E eq_refl). rewrite K in E. specialize (E eq_refl Ht). fold p e in E.
  destruct (comp_le_norm rk (r t)) as [A [B C]].
  pose proof (Nx 0%nat) as N0. pose proof (Nx 1%nat) as N1. pose proof (Nx 2%nat) as N2. unfold six in N0, N1, N2. cbn [nth fst] in N0, N1, N2.
  cbv zeta. set (b := sqrt (mu / p) * (1 + e) * (tol / sqrt mu)) in *. clearbody b.
  assert (Tri : forall a q w : R, Rabs (a - q) <= eps -> Rabs (w - q) <= b -> Rabs (a - w) <= eps + b).
  { intros a q w H1 H2. replace (a - w) with ((a - q) - (w - q)) by ring. eapply Rle_trans; [apply Rabs_triang|].
    rewrite Rabs_Ropp. lra. }
  split; [|split]; eapply Tri; eauto; lra.
Qed.
Lemma final_agrees mu r0 v0 t eps tol (r v : R -> vec) d x0 integ s l sv sc : 0 < mu -> cross r0 v0 <> vzero ->
  two_body_motion mu r v -> r 0 = r0 -> v 0 = v0 -> kepler_problem mu r v d x0 ->
  follows eps integ (fun t => six (r t, v t)) ->
  run integ (to_final d x0 t sv sc) = (Some s, l) ->
  let alpha := alpha_of (vnorm r0) (vnorm v0) mu in
  let chi := solve_kepler_uni t alpha (vnorm r0) (sigma_fn r0 v0 mu) mu default_tol uni_max_iter in
  let p := semiparameter (vnorm (angular_momentum r0 v0)) mu in
  let e := vnorm (eccentricity_vector r0 v0 mu) in
  Rabs (kepler_equ_uni chi alpha (vnorm r0) (sigma_fn r0 v0 mu) t mu) <= tol ->
  exists x rk vk, sol_ys s = [x] /\ kepler [t] r0 v0 mu = [(rk, vk)] /\
    let b := eps + sqrt (mu / p) * (1 + e) * (tol / sqrt mu) in
    Rabs (nth 0 x 0 - c0 rk) <= b /\ Rabs (nth 1 x 0 - c1 rk) <= b /\ Rabs (nth 2 x 0 - c2 rk) <= b.
Proof.
  intros Hmu Hh Hm Hr Hv Hk Hf E. cbv zeta. intros Ht.
  assert (Hh' : cross (r 0) (v 0) <> vzero) by now rewrite Hr, Hv.
  destruct (final_row mu r v Hm d x0 t eps integ s l Hmu Hh' Hk Hf sv sc E) as [_ [x [Hx N]]].
  destruct (agree_with_kepler mu r0 v0 t eps tol x Hmu Hh r v Hm Hr Hv N Ht) as [rk [vk [K B]]]. eauto 6.
Qed.

(** ** The documented J2 field *)
Lemma const_between (f : R -> R) a b s s' : (forall t : R, between a b t -> is_derive f t 0) ->
  between a b s -> between a b s' -> f s = f s'.
Proof.
  intros H Hs Hs'. unfold between in *.
  destruct (Rtotal_order s s') as [L|[->|L]]; [|reflexivity|].
  - apply (eq_is_derive f s s'); [|exact L]. intros t Ht. apply H. lra.
  - symmetry. apply (eq_is_derive f s' s); [|exact L]. intros t Ht. apply H. lra.
Qed.
Lemma lderive_six (r v : R -> vec) (s : R) (a b : vec) :
  lderive (fun t => six (r t, v t)) s (six (a, b)) -> vderive r s a /\ vderive v s b.
Proof.
  intros [_ H]. unfold six in H. cbn [fst snd List.length] in H.
  pose proof (H 0%nat ltac:(lia)) as H0. pose proof (H 1%nat ltac:(lia)) as H1. pose proof (H 2%nat ltac:(lia)) as H2.
  pose proof (H 3%nat ltac:(lia)) as H3. pose proof (H 4%nat ltac:(lia)) as H4. pose proof (H 5%nat ltac:(lia)) as H5.
  cbn [nth] in *. split; (split; [|split]); assumption.
Qed.
Lemma field_j2 t r v args mu J Req : get "mu" args = Some mu -> get "J2" args = Some J -> get "R_eq" args = Some Req ->
  j2_field t (six (r, v)) args = Ok (six (v, vplus (gravity mu r) (j2R mu J Req r))).
Proof.
  intros H1 H2 H3. unfold j2_field. rewrite six_state. cbn [fst snd]. rewrite (pm_R _ _ _ _ mu H1).
  rewrite (j2_R _ _ _ _ mu J Req) by auto. reflexivity.
Qed.
Lemma j2_conserved (c : @call R) (mu J Req : R) (r v : R -> vec) :
  k_terms c = j2_field -> get "mu" (k_args c) = Some mu -> get "J2" (k_args c) = Some J -> get "R_eq" (k_args c) = Some Req ->
  solves c (fun t => six (r t, v t)) -> (forall s, between (k_t0 c) (k_t1 c) s -> r s <> vzero) ->
  forall s s', between (k_t0 c) (k_t1 c) s -> between (k_t0 c) (k_t1 c) s' ->
  dot (v s) (v s) / 2 - (kepler_potential mu (r s) + zonal 2 mu J Req (r s))
   = dot (v s') (v s') / 2 - (kepler_potential mu (r s') + zonal 2 mu J Req (r s')) /\
  c2 (cross (r s) (v s)) = c2 (cross (r s') (v s')).
Proof.
  intros Ht H1 H2 H3 [_ Hs] Hn s s' B B'.
  assert (D : forall t, between (k_t0 c) (k_t1 c) t ->
     vderive r t (v t) /\ vderive v t (vplus (gravity mu (r t)) (j2R mu J Req (r t)))).
  { intros t Bt. destruct (Hs t Bt) as [d [E L]]. rewrite Ht, (field_j2 _ _ _ _ mu J Req H1 H2 H3) in E.
    injection E as <-. now apply lderive_six in L. }
  split.
  - apply (const_between (fun t => dot (v t) (v t) / 2 - (kepler_potential mu (r t) + zonal 2 mu J Req (r t))) (k_t0 c) (k_t1 c) s s'); auto.
    intros t Bt. destruct (D t Bt) as [Hr Hv]. pose proof (Hn t Bt) as N.
    eapply der_eq.
    + apply (der_minus (fun t => dot (v t) (v t) / 2) (fun t => kepler_potential mu (r t) + zonal 2 mu J Req (r t))).
      * unfold Rdiv. apply (der_scal_r (fun t => dot (v t) (v t))).
        unfold dot. destruct Hv as (A & Bv & C). apply der_plus; [apply der_plus|];
          (eapply (der_mult _ _ t); eassumption).
      * apply (der_plus (fun t => kepler_potential mu (r t))).
        { apply (grad_pm mu (r t) N r t (v t) eq_refl Hr). }
        { apply (grad_j2 mu J Req (r t) N r t (v t) eq_refl Hr). }
    + cbv beta. unfold dot, vplus. cbn [c0 c1 c2]. field.
  - apply (const_between (fun t => c2 (cross (r t) (v t))) (k_t0 c) (k_t1 c) s s'); auto.
    intros t Bt. destruct (D t Bt) as [(A & B1 & C) (D0 & E & F)].
    pose proof (f_equal c2 (torque_pm mu (r t))) as T1. pose proof (torque_j2 mu J Req (r t)) as T2.
    unfold cross, vzero, vplus in *. cbn [c0 c1 c2] in *.
    eapply der_eq; [apply der_minus; (eapply (der_mult _ _ t); eassumption)|]. cbv beta. lra.
Qed.
(** The default parameters do not suit the J2 field. *)
Lemma j2_default_args t r v ev d : od_args (OrbDynx (T := R) (N := Num_R) j2_field None ev) = d ->
  j2_field t (six (r, v)) d = Raise (KeyError "J2").
Proof. intros <-. reflexivity. Qed.

Lemma orb_defaults t r v (f : @field R) a e :
  od_event (OrbDynx f None None) = None /\
  point_mass_field t (six (r, v)) (od_args (OrbDynx f None (Some e))) = Ok (six (v, gravity 1 r)) /\
  OrbDynx f (Some a) (Some e) = mkOrb f a e.
Proof.
  split; [reflexivity|split; [|reflexivity]].
  assert (E : get "mu" (od_args (OrbDynx f None (Some e))) = Some 1) by (cbn; f_equal; unfold n_dec; cbn; lra).
  exact (field_pm t r v _ 1 E).
Qed.

(** ** An integrator that knows the circle *)
Definition circle (t : R) : list R := [cos t; sin t; 0; - sin t; cos t; 0].
Definition circle_times (c : @call R) : list R :=
  if sa_t0 (k_saveat c) then [k_t0 c; k_t1 c]
  else match sa_ts (k_saveat c) with Some ts => ts | None => [k_t1 c] end.
Definition circle_integ (c : @call R) : option (@solution R) :=
  Some (mkSol (circle_times c) (map circle (circle_times c))).
Lemma circle_follows : follows 0 circle_integ circle.
Proof.
  intros c s _ _ E. injection E as <-. cbn [sol_ts sol_ys]. split.
  - unfold times_asked, circle_times. split; [|split].
    + intros A _ B _. now rewrite A, B.
    + intros w A _ B _. now rewrite A, B.
    + intros A _ _. rewrite A. split; [reflexivity|]. split; [reflexivity|]. unfold between.
      intros x [<-|[<-|[]]]; pose proof (Rmin_l (k_t0 c) (k_t1 c)); pose proof (Rmin_r (k_t0 c) (k_t1 c));
        pose proof (Rmax_l (k_t0 c) (k_t1 c)); pose proof (Rmax_r (k_t0 c) (k_t1 c)); lra.
  - induction (circle_times c) as [|t l IH]; constructor; auto. split; [reflexivity|].
    intros i. rewrite Rminus_eq_0, Rabs_R0. lra.
Qed.
Lemma ex_cowell t : run circle_integ (to_final (OrbDynx point_mass_field None None) (six (mk3 1 0 0, mk3 0 1 0)) t None None)
  = (Some (mkSol [t] [[cos t; sin t; 0; - sin t; cos t; 0]]),
     [mkCall point_mass_field Tsit5 0 t None [1; 0; 0; 0; 1; 0] [("mu"%string, 1 / 1)] (Some 4096%Z)
        (PIDController (1 / 100000000) (1 / 100000000)) (mkSave false true None false false) None]).
Proof. reflexivity. Qed.
