(** * NdExamples: witnesses for the array properties *)
From Coq Require Import List Arith Lia ZArith Bool Reals Lra.
Import ListNotations.
From Verif Require Import Num NumR Nd NdModel SpecNd NdLib NdElem NdVec NdRv NdCoe NdKep NdStm OrbIntegrals Uniformulas KepEqu OrbElements StateTrans PropKepler Spec RLib OrbFacts KepRows.
Local Open Scope nat_scope.

Section Wit.
  Context {T : Type} {N : Num T}.
  Lemma compat_of (ss : list (list nat)) S : (forall s, In s ss -> fits s S) -> compatible ss.
  Proof using. intros H. now exists S. Qed.
  Lemma coe2rv_ecc_batch (p e incl raan argp f mu : arr T) :
    dims e = [2] -> dims p = [] -> dims incl = [] -> dims raan = [] -> dims argp = [] -> dims f = [] -> dims mu = [] ->
    compatible (map dims [p; e; incl; raan; argp; f; mu]) /\
    coe2rv_nd (Some p) (Some e) (Some incl) (Some raan) (Some argp) (Some f) (Some mu) = None.
  Proof using.
    intros He Hp Hi HO Hw Hf Hm. split.
    - exists [2]. intros s. cbn. rewrite He, Hp, Hi, HO, Hw, Hf, Hm. intros [<-|[<-|[<-|[<-|[<-|[<-|[<-|[]]]]]]]]; cbn; auto.
    - destruct (coe2rv_nd _ _ _ _ _ _ _) as [o|] eqn:E; [|reflexivity]. destruct (coe2rv_only _ _ _ _ _ _ _ _ E) as [_ H]. rewrite He, Hf in H. destruct H.
  Qed.
  Lemma rv2coe_flat_mu n (pos vel mu : arr T) : dims pos = [3; n] -> dims vel = [3; n] -> dims mu = [3] ->
    fits (dims mu) (dims pos) /\ rv2coe_nd (Some pos) (Some vel) (Some mu) = None.
  Proof using.
    intros Hp Hv Hm. split; [rewrite Hp, Hm; cbn; auto|].
    destruct (rv2coe_nd _ _ _) as [c|] eqn:E; [|reflexivity]. destruct (rv2coe_only _ _ _ _ E) as (s & t & m & _ & _ & [C|[C _]] & _); rewrite Hm in C; discriminate.
  Qed.
  (** Each component of the eccentricity vector is divided by its own [mu]. *)
  Lemma ecc_flat_mu (pos vel mu : arr T) : dims pos = [3] -> dims vel = [3] -> dims mu = [3] ->
    exists o, eccentricity_vector_nd (Some pos) (Some vel) (Some mu) = Some o /\ dims o = [3] /\
      forall k, k < 3 -> at_ o [k] =
        comp k (eccentricity_vector (row pos []) (row vel []) (at_ mu [k])).
  Proof using.
    intros Hp Hv Hm. unfold eccentricity_vector_nd, angular_momentum_nd, cross_nd, norm_last, sum_last, lift1, lift2. unnd. unfold lift2, lift1, obind.
    rewrite Hp, Hv. cbn [dims bcast bcast1 Nat.eqb]. rewrite ?Hp, ?Hv, ?Hm. cbn [dims bcast bcast1 Nat.eqb].
    eexists. split; [reflexivity|]. split; [reflexivity|]. intros k Hk. unfold read, eccentricity_vector, angular_momentum, row, vector_norm, vinner, read.
    rewrite Hp, Hv, Hm. cbn [dims at_ pick Nat.eqb hd tl sum_n sum_from bcast bcast1]. rewrite ?Hp. cbn [at_ dims pick hd tl Nat.eqb].
    destruct k as [|[|[|]]]; [reflexivity..|lia].
  Qed.
  Lemma sigma_flat_mu n (pos vel mu : arr T) : 1 < n -> dims pos = [3; n] -> dims vel = [3; n] -> dims mu = [n] ->
    exists o, sigma_fn_nd (Some pos) (Some vel) (Some mu) = Some o /\ dims o = [n; n] /\
      forall j k, j < n -> k < n -> at_ o [j; k] = sigma_fn (row pos [k]) (row vel [k]) (at_ mu [j]).
  Proof using.
    intros Hn Hp Hv Hm. unfold sigma_fn_nd, sum_last. unnd. unfold lift2, lift1, obind. rewrite Hp, Hv. cbn [bcast bcast1 Nat.eqb]. unfold bcast1. rewrite Nat.eqb_refl.
    cbn [dims]. rewrite Hm. cbn [bcast]. unfold bcast1. replace (1 =? n) with false by (symmetry; apply Nat.eqb_neq; lia). cbn [Nat.eqb].
    eexists. split; [reflexivity|]. split; [reflexivity|]. intros j k Hj Hk. unfold sigma_fn, vinner, row, read. cbn [at_ dims]. rewrite Hp, Hv. cbn [pick Nat.eqb hd tl at_ sum_n sum_from].
    replace (n =? 1) with false by (symmetry; apply Nat.eqb_neq; lia). cbn [c0 c1 c2 hd tl pick Nat.eqb]. rewrite ?Hp, ?Hv, ?Hm. cbn [pick Nat.eqb hd tl].
    replace (n =? 1) with false by (symmetry; apply Nat.eqb_neq; lia). reflexivity.
  Qed.
  Lemma common_one ss S : In S ss -> (forall s, In s ss -> fits s S) -> common ss S.
  Proof using. intros H H'. split; [exact H'|]. intros S' H''. now apply H''. Qed.
  Lemma coe2rv_mu_column n (p e incl raan argp f mu : arr T) : 1 < n ->
    dims p = [n] -> dims e = [n] -> dims incl = [n] -> dims raan = [n] -> dims argp = [n] -> dims f = [n] -> dims mu = [1; n] ->
    exists r v, coe2rv_nd (Some p) (Some e) (Some incl) (Some raan) (Some argp) (Some f) (Some mu) = Some (r, v) /\
      vectors r [n] /\ vectors v [n; n].
  Proof using.
    intros Hn Hp He Hi HO Hw Hf Hm.
    assert (Q : map dims [p; e; incl; raan; argp; f; mu] = [[n]; [n]; [n]; [n]; [n]; [n]; [1; n]]) by (cbn; now rewrite Hp, He, Hi, HO, Hw, Hf, Hm).
    assert (Q' : map dims [p; e; incl; raan; argp; f] = [[n]; [n]; [n]; [n]; [n]; [n]]) by (cbn; now rewrite Hp, He, Hi, HO, Hw, Hf).
    assert (C : common (map dims [p; e; incl; raan; argp; f; mu]) [n; n]).
    { rewrite Q. split; [intros s; cbn; intros [<-|[<-|[<-|[<-|[<-|[<-|[<-|[]]]]]]]]; cbn; auto|].
      intros S' H. pose proof (H [n] ltac:(cbn; tauto)) as H1. pose proof (H [1; n] ltac:(cbn; tauto)) as H2.
      destruct S' as [|a [|b S']]; [destruct H1|destruct H2 as [_ []]|]. destruct H1 as [H1 _]. destruct H2 as [_ [H2 _]]. split; [exact H1|]. split; [exact H2|exact I]. }
    destruct (coe2rv_rows p e incl raan argp f mu) as (r & v & U & S & E & Dr & Cr & Dv & Cv & _).
    - exists [n; n]. apply C.
    - rewrite He, Hf. cbn. auto.
    - exists r, v. split; [exact E|]. rewrite (common_unique _ _ _ C Cv).
      rewrite (common_unique _ _ [n] Cr) in Dr; [auto|]. rewrite Q'. apply common_one; [cbn; tauto|].
      intros s. cbn. intros [<-|[<-|[<-|[<-|[<-|[<-|[]]]]]]]; cbn; auto.
  Qed.
End Wit.

Section Packed.
  Context {T : Type} {N : Num T}.
  Lemma uspec_ew U u (chi al : arr T) : uspec U u -> dims al = [] ->
    elementwise [chi] (U (Some chi) (Some al)) (fun x => u (x chi) (at_ al [])).
  Proof using.
    intros Hu Ha. destruct (proj1 (Hu chi al) Ha) as (o & E & D & V). rewrite E. cbn. rewrite D. split.
    - split; [intros s [<-|[]]; apply fits_refl|]. intros S' H. apply H. now left.
    - intros i Hi. rewrite V by exact Hi. unfold read. now rewrite pick_id.
  Qed.
  Lemma ufuncs_elementwise (chi al : arr T) :
    (dims al = [] -> forall (U : nd T -> nd T -> nd T) (u : T -> T -> T),
       In (U, u) [(ufunc0_nd, ufunc0); (ufunc1_nd, ufunc1); (ufunc2_nd, ufunc2); (ufunc3_nd, ufunc3); (ufunc4_nd, ufunc4); (ufunc5_nd, ufunc5)] ->
       elementwise [chi] (U (Some chi) (Some al)) (fun x => u (x chi) (at_ al []))) /\
    (dims al <> [] -> forall U : nd T -> nd T -> nd T,
       In U [ufunc0_nd; ufunc1_nd; ufunc2_nd; ufunc3_nd; ufunc4_nd; ufunc5_nd] -> U (Some chi) (Some al) = None).
  Proof using.
    split.
    - intros Ha U u H. apply uspec_ew; [|exact Ha]. cbn in H.
      destruct H as [[= <- <-]|[[= <- <-]|[[= <- <-]|[[= <- <-]|[[= <- <-]|[[= <- <-]|[]]]]]]];
        [apply u0_nd|apply u1_nd|apply u2_nd|apply u3_nd|apply u4_nd|apply u5_nd].
    - intros Ha U H. cbn in H. destruct H as [<-|[<-|[<-|[<-|[<-|[<-|[]]]]]]];
        [apply (u0_nd chi al)|apply (u1_nd chi al)|apply (u2_nd chi al)|apply (u3_nd chi al)|apply (u4_nd chi al)|apply (u5_nd chi al)]; exact Ha.
  Qed.
  Lemma vector_functions (pos vel mu : arr T) (s t m : list nat) :
    vectors pos s -> vectors vel t -> column mu m ->
    (compatible [s; t] -> exists (o : arr T) (u : list nat), angular_momentum_nd (Some pos) (Some vel) = Some o /\
       vectors o u /\ common [s; t] u /\ forall i, inb u i -> row o i = angular_momentum (row pos i) (row vel i)) /\
    (compatible [s; t; m] -> exists (o : arr T) (u : list nat), eccentricity_vector_nd (Some pos) (Some vel) (Some mu) = Some o /\
       vectors o u /\ common [s; t; m] u /\ forall i, inb u i -> row o i = eccentricity_vector (row pos i) (row vel i) (cell mu i)) /\
    (compatible [s; t; m] -> exists (o : arr T) (u : list nat), sigma_fn_nd (Some pos) (Some vel) (Some mu) = Some o /\
       dims o = 1 :: u /\ common [s; t; m] u /\ forall i, inb u i -> cell o i = sigma_fn (row pos i) (row vel i) (cell mu i)).
  Proof using.
    intros Hp Hv Hm. split; [|split]; intros C.
    - destruct (angular_momentum_rows pos vel s t Hp Hv C) as (o & u & E & D & K & V). exists o, u. repeat (split; [assumption|]).
      intros i Hi. apply (V u i); [exact (proj1 K)|exact Hi].
    - destruct (eccentricity_vector_rows pos vel mu s t m Hp Hv Hm C) as (o & u & E & D & K & V). exists o, u. repeat (split; [assumption|]).
      intros i Hi. apply (V u i); [exact (proj1 K)|exact Hi].
    - destruct (sigma_rows pos vel mu s t m Hp Hv Hm C) as (o & u & E & D & K & V). exists o, u. repeat (split; [assumption|]).
      intros i Hi. apply (V u i); [exact (proj1 K)|exact Hi].
  Qed.
  Lemma ent_entry k l (A : M3 T) : k < 3 -> l < 3 -> entry k l A = ent k l A.
  Proof using. intros Hk Hl. destruct k as [|[|[|]]]; [| | |lia]; (destruct l as [|[|[|]]]; [reflexivity..|lia]). Qed.
  Lemma dxdx0_entries (r v r0 v0 dt mu : arr T) :
    vectors r [] -> vectors v [] -> vectors r0 [] -> vectors v0 [] -> dims dt = [] -> dims mu = [] ->
    exists D, dxdx0_nd (Some r) (Some v) (Some r0) (Some v0) (Some dt) (Some mu) = Some D /\ dims D = [6; 6] /\
      let J := dxdx0 (row r []) (row v []) (row r0 []) (row v0 []) (at_ dt []) (at_ mu []) in
      forall k l, k < 3 -> l < 3 ->
        at_ D [l; k] = ent k l (b_rr J) /\ at_ D [3 + l; k] = ent k l (b_rv J) /\
        at_ D [l; 3 + k] = ent k l (b_vr J) /\ at_ D [3 + l; 3 + k] = ent k l (b_vv J).
  Proof using.
    intros H1 H2 H3 H4 H5 H6. destruct (dxdx0_block r v r0 v0 dt mu H1 H2 H3 H4 H5 H6) as (D & E & B & V). exists D. split; [exact E|]. split; [exact B|].
    cbv zeta. intros k l Hk Hl. rewrite <- !ent_entry by assumption. now apply V.
  Qed.
  Lemma sigma_item (r0 v0 mu dt al rm tol : arr T) :
    vectors r0 [] -> vectors v0 [] -> dims mu = [] ->
    exists s, sigma_fn_nd (Some r0) (Some v0) (Some mu) = Some s /\ dims s = [1] /\
      item (Some s) = Some (sigma_fn (row r0 []) (row v0 []) (at_ mu [])) /\
      uni_accepts (Some dt) (Some al) (Some rm) (Some s) (Some mu) (Some tol) = false.
  Proof using.
    intros Hr Hv Hm. destruct (sigma_dims r0 v0 mu Hr Hv Hm) as (s & E & D). exists s. split; [exact E|]. split; [exact D|]. split.
    - apply item_one; [now right|]. rewrite <- E. now apply s_sigma.
    - destruct (uni_accepts _ _ _ _ _ _) eqn:A; [|reflexivity]. apply uni_iff in A. destruct A as (_ & _ & _ & A & _). congruence.
  Qed.
  Lemma kepler_batch_none (ts r0 v0 mu : arr T) (s t : list nat) : vectors r0 s -> vectors v0 t -> (exists n, In n (s ++ t) /\ n <> 1) ->
    kepler_nd (Some ts) (Some r0) (Some v0) (Some mu) = None.
  Proof using.
    intros Hr Hv (n & I & H). destruct (kepler_nd _ _ _ _) as [o|] eqn:E; [|reflexivity]. exfalso. apply H. exact (kepler_one_state ts r0 v0 mu s t o Hr Hv E n I).
  Qed.
End Packed.

Section Real.
  Local Open Scope R_scope.
  Lemma broadcast_example :
    let p := list1 0 [2; 6] in
    let e := list2 0 1 [[0]; [1]; [2]] in
    exists o, @radius_periapsis _ Num_nd (Some p) (Some e) = Some o /\ dims o = [2; 3]%nat /\
      at_ o [0; 0]%nat = 2 /\ at_ o [1; 0]%nat = 6 /\ at_ o [1; 1]%nat = 3 /\ at_ o [0; 2]%nat = 2 / 3.
  Proof using.
    cbv zeta. eexists. split; [reflexivity|]. split; [reflexivity|]. unfold read. cbn. repeat split; field.
  Qed.
  Lemma inb_k k n : (k < n)%nat -> inb [n] [k]. Proof using. intros H. constructor; [exact H|constructor]. Qed.
  Lemma rv2coe_example :
    let pos := list2 0 3 [[1; 0; 0]; [2; 0; 0]] in
    let vel := list1 0 [0; 1; 0] in
    exists c, rv2coe_nd (Some pos) (Some vel) (Some (num 1)) = Some c /\ dims (nd_p c) = [2]%nat /\ dims (nd_raan c) = [2]%nat /\
      at_ (nd_p c) [0]%nat = 1 /\ at_ (nd_p c) [1]%nat = 4 /\ at_ (nd_e c) [0]%nat = 0 /\ at_ (nd_e c) [1]%nat = 1.
  Proof using.
    cbv zeta. set (pos := list2 0 3 [[1; 0; 0]; [2; 0; 0]]). set (vel := list1 0 [0; 1; 0]).
    destruct (rv2coe_rows pos vel (num 1) [2%nat] [] [] eq_refl eq_refl (or_intror (conj eq_refl eq_refl)) [2%nat]) as (U & c & CU & E & Dp & De & Di & DO & Dw & Df & V).
    { apply common_one; [now left|]. intros s [<-|[<-|[<-|[]]]]; cbn; auto. }
    exists c. split; [exact E|]. split; [exact Dp|]. split.
    { rewrite DO. apply (common_unique _ _ _ CU). apply common_one; [now left|]. intros s [<-|[<-|[]]]; cbn; auto. }
    pose proof (V [0]%nat ltac:(apply inb_k; lia)) as V0. pose proof (V [1]%nat ltac:(apply inb_k; lia)) as V1. clear V E.
    assert (R0 : row pos [0%nat] = mk3 1 0 0) by reflexivity. assert (R1 : row pos [1%nat] = mk3 2 0 0) by reflexivity.
    assert (W : forall k, row vel [k] = mk3 0 1 0) by reflexivity. assert (M : forall k, cell (num 1) [k] = 1) by reflexivity.
    rewrite R0, W, M in V0. rewrite R1, W, M in V1. unfold rv2coe in V0, V1. cbv zeta in V0, V1.
    injection V0 as P0 E0 _ _ _ _. injection V1 as P1 E1 _ _ _ _. rewrite P0, P1, E0, E1.
    assert (S1 : sqrt (1 * 1 + 0 * 0 + 0 * 0) = 1) by (replace (1 * 1 + 0 * 0 + 0 * 0) with 1 by ring; apply sqrt_1).
    assert (S2 : sqrt (2 * 2 + 0 * 0 + 0 * 0) = 2) by (replace (2 * 2 + 0 * 0 + 0 * 0) with (2 * 2) by ring; apply sqrt_square; lra).
    rewrite S1, S2. cbn. split; [|split; [|split]].
    - match goal with |- sqrt ?x * sqrt ?x / 1 = 1 => replace x with 1 by ring end. rewrite sqrt_1. field.
    - match goal with |- sqrt ?x * sqrt ?x / 1 = 4 => replace x with (2 * 2) by ring end. rewrite sqrt_square by lra. field.
    - match goal with |- sqrt ?x = 0 => replace x with 0 by field end. apply sqrt_0.
    - match goal with |- sqrt ?x = 1 => replace x with 1 by field end. apply sqrt_1.
  Qed.
  Lemma mk3_eq (a b c a' b' c' : R) : a = a' -> b = b' -> c = c' -> mk3 a b c = mk3 a' b' c'.
  Proof using. now intros -> -> ->. Qed.
  Lemma coe2rv_example : exists r v,
    coe2rv_nd (Some (num 4)) (Some (num 0)) (Some (num 0)) (Some (num 0)) (Some (num 0))
      (Some (list1 0 [0; PI])) (Some (num 1)) = Some (r, v) /\ dims r = [3; 2]%nat /\ dims v = [3; 2]%nat /\
    row r [0]%nat = mk3 4 0 0 /\ row r [1]%nat = mk3 (-4) 0 0 /\ c1 (row v [0]%nat) = 1 / 2 /\ c1 (row v [1]%nat) = - (1 / 2).
  Proof using.
    set (f := list1 0 [0; PI]).
    destruct (coe2rv_rows (num 4) (num 0) (num 0) (num 0) (num 0) f (num 1)) as (r & v & U & S & E & Dr & Cr & Dv & Cv & V).
    { exists [2%nat]. intros s. cbn. intros [<-|[<-|[<-|[<-|[<-|[<-|[<-|[]]]]]]]]; cbn; auto. }
    { exact I. }
    assert (EU : U = [2%nat]). { apply (common_unique _ _ _ Cr). apply common_one; [cbn; tauto|]. intros s. cbn. intros [<-|[<-|[<-|[<-|[<-|[<-|[]]]]]]]; cbn; auto. }
    assert (ES : S = [2%nat]). { apply (common_unique _ _ _ Cv). apply common_one; [cbn; tauto|]. intros s. cbn. intros [<-|[<-|[<-|[<-|[<-|[<-|[<-|[]]]]]]]]; cbn; auto. }
    subst U S. exists r, v. split; [exact E|]. split; [exact Dr|]. split; [exact Dv|].
    pose proof (V [0]%nat ltac:(apply inb_k; lia)) as V0. pose proof (V [1]%nat ltac:(apply inb_k; lia)) as V1.
    unfold at7 in V0, V1. change (read f [0]%nat) with 0 in V0. change (read f [1]%nat) with PI in V1. cbn [read num dims at_] in V0, V1. unfold read, num in V0, V1. cbn [dims at_] in V0, V1.
    unfold coe2rv in V0, V1. cbv zeta in V0, V1. apply pair_equal_spec in V0, V1. destruct V0 as [A0 B0], V1 as [A1 B1]. rewrite A0, A1, B0, B1.
    assert (S2 : sqrt (1 / 4) = 1 / 2) by (replace (1 / 4) with ((1 / 2) * (1 / 2)) by field; apply sqrt_square; lra).
    change (n_sqrt (1 / 4)%num) with (sqrt (1 / 4)). rewrite S2. cbn. rewrite cos_0, sin_0, cos_PI, sin_PI.
    split; [apply mk3_eq; cbn; rewrite ?cos_0, ?sin_0; field|]. split; [apply mk3_eq; cbn; rewrite ?cos_0, ?sin_0; field|]. split; field.
  Qed.
  Lemma kepler_example : exists rr vv,
    kepler_nd (Some (list1 0 [0; 0; 0])) (Some (list1 0 [1; 0; 0])) (Some (list1 0 [0; 1; 0])) (Some (num 1)) = Some (rr, vv) /\
    dims rr = [3; 3]%nat /\ row rr [2]%nat = mk3 1 0 0 /\ row vv [1]%nat = mk3 0 1 0.
  Proof using.
    destruct (kepler_rows (list1 0 [0; 0; 0]) (list1 0 [1; 0; 0]) (list1 0 [0; 1; 0]) (num 1) eq_refl eq_refl eq_refl (or_intror (ex_intro _ 3%nat eq_refl)))
      as (rr & vv & E & Dr & Dv & V).
    exists rr, vv. split; [exact E|]. split; [exact Dr|].
    assert (Z : forall k, (k < 3)%nat -> nth_error (kepler [0; 0; 0] (mk3 1 0 0) (mk3 0 1 0) 1) k = Some (mk3 1 0 0, mk3 0 1 0)).
    { intros k Hk. apply kepler_at_0; [intros [=]; lra|lra|]. destruct k as [|[|[|]]]; [reflexivity..|lia]. }
    pose proof (V 2%nat ltac:(cbn; lia)) as V2. pose proof (V 1%nat ltac:(cbn; lia)) as V1.
    change (times (list1 0 [0; 0; 0])) with [0; 0; 0] in *. change (row (list1 0 [1; 0; 0]) []) with (mk3 1 0 0) in *.
    change (row (list1 0 [0; 1; 0]) []) with (mk3 0 1 0) in *. change (at_ (num 1) []) with 1 in *.
    rewrite Z in V1, V2 by lia. assert (I2 : forall (A : Type) (x y : A), Some x = Some y -> x = y) by congruence.
    apply I2, pair_equal_spec in V1, V2. split; symmetry; [apply V2|apply V1].
  Qed.
End Real.
