(** * AdMore: where the derivatives are wrong, and worked values *)
From Coq Require Import Reals Lra Lia ZArith List String.
From Coquelicot Require Import Coquelicot.
Import ListNotations.
From Verif Require Import Num NumR NumD Spec SpecAd RLib Ana SeriesU Stm OrbFacts UFacts KepState KepMotion KepRows LoopFacts AdOps AdFacts Trace TraceLib AdKep.
From Verif Require Import OrbIntegrals Uniformulas Lagrange KepEqu StateTrans PropKepler StmFacts Gravity.
Local Open Scope R_scope.

(** ** The time derivative at the epoch *)
Lemma rate_0 mu r0 v0 ts i : 0 < mu -> cross r0 v0 <> vzero -> nth_error ts i = Some 0 ->
  exists o, nth_error (@kepler _ Num_D (map (fun t => mkD t 1) ts) (vmap3 konst r0) (vmap3 konst v0) (konst mu)) i = Some o /\
    vval (fst o) = r0 /\ vval (snd o) = v0 /\
    let k := Rabs (2 / vnorm r0 - vnorm v0 ^ 2 / mu) * vnorm r0 in
    vtang (fst o) = smul k v0 /\ vtang (snd o) = smul k (gravity mu r0).
Proof.
  intros Hmu Hh Hi. pose proof (vec_nonzero_l _ _ Hh) as Hr.
  destruct (rate_rows mu r0 v0 Hmu Hh ts i 0 Hi) as (o & n & x & k & _ & A & B & C & D & X0 & K0 & _ & L & _).
  exists o. split; [exact A|]. destruct (posS_0 r0 v0 mu Hmu Hr) as (P & V & Rd & Ti).
  rewrite (kepler_at_0 ts r0 v0 mu i Hr Hmu Hi) in B. injection B as B1 B2.
  split; [now rewrite <- B1|]. split; [now rewrite <- B2|]. cbv zeta.
  assert (Z : x 0%nat = 0) by (rewrite X0; ring).
  assert (N : n = 0%nat).
  { destruct n; [reflexivity|]. specialize (L 0%nat ltac:(lia)). rewrite Z, Ti, Rmult_0_r, Rminus_0_r, Rabs_R0 in L. lra. }
  subst n. rewrite K0, Z, Rd in C, D. rewrite <- B2 in C. rewrite <- B1 in D. split; [exact C|exact D].
Qed.
Lemma rate_0_wrong mu r0 v0 : 0 < mu -> cross r0 v0 <> vzero ->
  Rabs (2 / vnorm r0 - vnorm v0 ^ 2 / mu) * vnorm r0 <> 1 ->
  exists o, @kepler _ Num_D [mkD 0 1] (vmap3 konst r0) (vmap3 konst v0) (konst mu) = [o] /\ vtang (fst o) <> v0.
Proof.
  intros Hmu Hh N. destruct (rate_0 mu r0 v0 [0] 0 Hmu Hh eq_refl) as (o & A & _ & _ & C & _). cbv zeta in C.
  exists o. split.
  - cbn [map] in A. rewrite kepler_map in A |- *. cbn [map] in *. cbn in A. injection A as <-. reflexivity.
  - rewrite C. intros E. apply (vec_nonzero_r _ _ Hh). set (k := Rabs _ * _) in *. clearbody k.
    destruct v0 as [a b c]. unfold smul in E. cbn [c0 c1 c2] in E. injection E as E0 E1 E2. unfold vzero.
    assert (Q : forall y, k * y = y -> y = 0) by (intros y Hy; apply Rmult_eq_reg_l with (k - 1); lra).
    now rewrite (Q _ E0), (Q _ E1), (Q _ E2).
Qed.

(** ** The universal functions at zero energy *)
Lemma gt0D : @n_gt _ Num_D (mkD 0 1) (@n_Z _ Num_D 0) = false.
Proof. unfold n_gt. cbn. apply ltb_false. lra. Qed.
Lemma lt0D : @n_lt _ Num_D (mkD 0 1) (@n_Z _ Num_D 0) = false.
Proof. cbn. apply ltb_false. lra. Qed.
Lemma not_carries (f : R -> R) s d l : is_derive f s l -> l <> tang d -> ~ carries f s d.
Proof. intros H N [_ C]. apply N. rewrite <- (is_derive_unique _ _ _ H). exact (is_derive_unique _ _ _ C). Qed.
Lemma zero_energy (chi : R) : chi <> 0 ->
  ~ carries (fun a => ufunc0 chi a) 0 (@ufunc0 _ Num_D (konst chi) (mkD 0 1)) /\
  ~ carries (fun a => ufunc1 chi a) 0 (@ufunc1 _ Num_D (konst chi) (mkD 0 1)) /\
  ~ carries (fun a => ufunc2 chi a) 0 (@ufunc2 _ Num_D (konst chi) (mkD 0 1)) /\
  ~ carries (fun a => ufunc3 chi a) 0 (@ufunc3 _ Num_D (konst chi) (mkD 0 1)).
Proof.
  intros N. destruct (ufunc_dalpha chi 0) as (A & B & C & D).
  assert (G : @n_gt _ Num_R 0 (n_Z 0) = false) by (unfold n_gt; cbn; apply ltb_false; lra).
  assert (L : @n_lt _ Num_R 0 (n_Z 0) = false) by (cbn; apply ltb_false; lra).
  assert (P2 : chi ^ 2 <> 0) by now apply pow_nonzero. assert (P3 : chi ^ 3 <> 0) by now apply pow_nonzero.
  assert (P4 : chi ^ 4 <> 0) by now apply pow_nonzero. assert (P5 : chi ^ 5 <> 0) by now apply pow_nonzero.
  unfold ufunc1, ufunc2, ufunc3, ufunc4, ufunc5 in A, B, C, D. rewrite G, L in A, B, C, D. unfold where_ in A, B, C, D.
  split; [|split; [|split]]; (eapply not_carries; [eassumption|]); [unfold ufunc0|unfold ufunc1|unfold ufunc2|unfold ufunc3]; rewrite gt0D, lt0D; unfold where_; cbn; intros E.
  - apply P2. lra.
  - apply P3. lra.
  - apply P4. lra.
  - apply P5. lra.
Qed.

(** ** Worked values *)
Lemma period_example : carries (fun a => orb_period a 1) 1 (mkD (2 * PI) (3 * PI)).
Proof.
  pose proof (ad_orb_period 1 (fun a => a) (fun _ => 1) (mkD 1 1) (konst 1)) as H.
  replace (mkD (2 * PI) (3 * PI)) with (@orb_period _ Num_D (mkD 1 1) (konst 1)).
  - apply H; [split; [reflexivity|apply der_id]|apply a_const|lra|lra].
  - unfold orb_period. cbn. replace (1 * (1 * 1) / 1) with 1 by field. rewrite ?sqrt_1. apply D_eq; field.
Qed.
(** Radial attraction 1 / x^2: derivative 2 / x^3. *)
Lemma pull_example : carries (fun x => match point_mass_grav 0 [x; 0; 0] [("mu"%string, 1)] with Ok a => c0 a | _ => 0 end) 1 (mkD (-1) 2).
Proof.
  destruct (ad_point_mass 1 (fun x => x) (fun _ => 0) (fun _ => 0) (mkD 1 1) (konst 0) (konst 0) (fun _ => []) [] (conj eq_refl (der_id 1)) (a_const 0 1) (a_const 0 1)) with
    (t := fun _ : R => 0) (dt := konst 0) (args := fun _ : R => [("mu"%string, 1)]) (dargs := [("mu"%string, konst 1)]) (mu := fun _ : R => 1) (dm := konst 1)
    as (acc & dacc & A & B & C).
  - intros E. injection E. lra.
  - split; [reflexivity|]. split; [reflexivity|apply a_const].
  - replace (mkD (-1) 2) with (c0 dacc).
    + eapply a_ext; [|apply C]. intros u. cbv beta. now rewrite (A u).
    + assert (S1 : sqrt (1 * 1 + 0 * 0 + 0 * 0) = 1) by (replace (1 * 1 + 0 * 0 + 0 * 0) with 1 by ring; apply sqrt_1).
      cbn in B. injection B as <-. cbn. rewrite ?S1. apply D_eq; field.
Qed.
Lemma start_example : exists o, @kepler _ Num_D [mkD 0 1] (vmap3 konst (mk3 1 0 0)) (vmap3 konst (mk3 0 (6 / 5) 0)) (konst 1) = [o] /\ vtang (fst o) = mk3 0 (84 / 125) 0.
Proof.
  assert (N1 : vnorm (mk3 1 0 0) = 1) by (apply vnorm_unique; [lra|unfold dot; cbn [c0 c1 c2]; ring]).
  assert (N2 : vnorm (mk3 0 (6 / 5) 0) = 6 / 5) by (apply vnorm_unique; [lra|unfold dot; cbn [c0 c1 c2]; field]).
  assert (Hh : cross (mk3 1 0 0) (mk3 0 (6 / 5) 0) <> vzero) by (unfold cross, vzero; cbn [c0 c1 c2]; intros E; injection E; lra).
  destruct (rate_0 1 _ _ [0] 0 Rlt_0_1 Hh eq_refl) as (o & A & _ & _ & C & _). cbv zeta in C.
  exists o. split.
  - rewrite kepler_map in A |- *. cbn [map] in *. cbn in A. injection A as <-. reflexivity.
  - rewrite C, N1, N2. rewrite Rabs_right by lra. unfold smul; cbn [c0 c1 c2]. apply mk3_eq; field.
Qed.

(** ** Tracing *)
Lemma om_none {A B} (f : A -> B) x : option_map f x = None -> x = None. Proof. now destruct x. Qed.
Lemma jit_raises (t mu : R) (r v : V3 R) : let known_ x := mkT x true in
  @kepler_items _ (Num_T true) item_T [known_ t] (vmap3 known_ r) (vmap3 known_ v) (known_ mu) = None.
Proof. cbv zeta. eapply om_none. rewrite items_traced. reflexivity. Qed.
Lemma vmap_raises (t mu : R) (r v : V3 R) : let known_ x := mkT x true in let mapped x := mkT x false in
  @kepler_items _ (Num_T false) item_T [known_ t] (vmap3 mapped r) (vmap3 mapped v) (known_ mu) = None.
Proof. cbv zeta. eapply om_none. rewrite items_traced. reflexivity. Qed.
Lemma vmap_times (t mu : R) (r v : V3 R) : let known_ x := mkT x true in let mapped x := mkT x false in
  @kepler_items _ (Num_T false) item_T [mapped t] (vmap3 known_ r) (vmap3 known_ v) (known_ mu) <> None.
Proof.
  cbv zeta. intros E. pose proof (items_traced false [mkT t false] (vmap3 (fun x => mkT x true) r) (vmap3 (fun x => mkT x true) v) (mkT mu true)) as H.
  rewrite E in H. discriminate H.
Qed.
Lemma jacfwd_wrong :
  (exists o, @kepler_items _ Num_D item_D [konst (2 * PI)] (mk3 (konst 1) (konst 0) (konst 0))
       (mk3 (konst 0) (mkD 1 1) (konst 0)) (konst 1) = Some [o] /\
     vval (fst o) = mk3 1 0 0 /\ vtang (fst o) = mk3 0 (- (2 * PI)) 0) /\
  (exists r v : R -> vec, locally 0 (fun u => flows_to 1 (2 * PI) (mk3 1 0 0, mk3 0 (1 + u) 0) (r u, v u))) /\
  (forall r v : R -> vec, locally 0 (fun u => flows_to 1 (2 * PI) (mk3 1 0 0, mk3 0 (1 + u) 0) (r u, v u)) ->
     vderive r 0 (mk3 0 (- (6 * PI)) 0)).
Proof.
  split; [|split; [exact turn_exists|exact turn_true]]. eexists. split; [exact turn_jvp|]. split; reflexivity.
Qed.

(** The rates in terms of the series. *)
Lemma rate_rows_spec : forall (mu : R) (r0 v0 : vec), 0 < mu -> cross r0 v0 <> vzero ->
  let a := 2 / vnorm r0 - vnorm v0 ^ 2 / mu in let s0 := dot r0 v0 / sqrt mu in
  let time chi := vnorm r0 * universal 1 chi a + s0 * universal 2 chi a + universal 3 chi a in
  let rad chi := vnorm r0 * universal 0 chi a + s0 * universal 1 chi a + universal 2 chi a in
  let sig chi := s0 * universal 0 chi a + (1 - a * vnorm r0) * universal 1 chi a in
  forall (ts : list R) (i : nat) (t : R), nth_error ts i = Some t ->
  exists o (n : nat) (x k : nat -> R), (n <= 50)%nat /\
    nth_error (@kepler _ Num_D (map (fun t => mkD t 1) ts) (vmap3 konst r0) (vmap3 konst v0) (konst mu)) i = Some o /\
    nth_error (kepler ts r0 v0 mu) i = Some (vval (fst o), vval (snd o)) /\
    vtang (fst o) = smul (k n) (vval (snd o)) /\ vtang (snd o) = smul (k n) (gravity mu (vval (fst o))) /\
    x 0%nat = sqrt mu * Rabs a * t /\ k 0%nat = Rabs a * rad (x 0%nat) /\
    (forall j, x (S j) = x j - (time (x j) - sqrt mu * t) / rad (x j) /\
      k (S j) = rad (x (S j)) / rad (x j) * (1 + (time (x j) - sqrt mu * t) * sig (x j) / rad (x j) ^ 2 * k j)) /\
    (forall j, (j < n)%nat -> / 1000000 < Rabs (time (x j) - sqrt mu * t)) /\
    (n = 50%nat \/ Rabs (time (x n) - sqrt mu * t) <= / 1000000).
Proof.
  intros mu r0 v0 Hmu Hh a s0 time rad sig ts i t Hi.
  assert (UU : forall al chi, U 0 chi al = universal 0 chi al /\ U 1 chi al = universal 1 chi al /\ U 2 chi al = universal 2 chi al /\ U 3 chi al = universal 3 chi al).
  { intros al chi. destruct (ufunc_universal chi al) as (A & B & C & D & _). rewrite <- A, <- B, <- C, <- D. now rewrite ufunc0_U, ufunc1_U, ufunc2_U, ufunc3_U. }
  assert (ET : forall chi, time chi = timeS r0 v0 mu chi).
  { intros chi. unfold time, timeS. destruct (UU (alphaS r0 v0 mu) chi) as (A & B & C & D). now rewrite B, C, D. }
  assert (ER : forall chi, rad chi = radS r0 v0 mu chi).
  { intros chi. unfold rad, radS. destruct (UU (alphaS r0 v0 mu) chi) as (A & B & C & D). now rewrite A, B, C. }
  assert (ES : forall chi, sig chi = sigS r0 v0 mu chi).
  { intros chi. unfold sig, sigS. destruct (UU (alphaS r0 v0 mu) chi) as (A & B & C & D). now rewrite A, B. }
  clearbody time rad sig.
  destruct (rate_rows mu r0 v0 Hmu Hh ts i t Hi) as (o & n & x & k & H1 & H2 & H3 & H4 & H5 & H6 & H7 & H8 & H9 & H10). exists o, n, x, k.
  split; [exact H1|]. split; [exact H2|]. split; [exact H3|]. split; [exact H4|]. split; [exact H5|]. split; [exact H6|].
  split; [rewrite ER; exact H7|]. split; [intros j; rewrite !ET, !ER, !ES; exact (H8 j)|].
  split; [intros j; rewrite ET; exact (H9 j)|]. rewrite ET. exact H10.
Qed.
