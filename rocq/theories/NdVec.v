(** * NdVec: batches of vectors and columns *)
From Coq Require Import List Arith Lia ZArith Bool.
Import ListNotations.
From Verif Require Import Num Nd NdModel SpecNd NdLib NdElem OrbIntegrals Uniformulas KepEqu.

(** ** [lax_cond] and the universal functions *)
Lemma same_dims_refl s : same_dims s s = true.
Proof. unfold same_dims. destruct (list_eq_dec Nat.eq_dec s s); congruence. Qed.
Lemma same_dims_eq s t : same_dims s t = true -> s = t.
Proof. unfold same_dims. destruct (list_eq_dec Nat.eq_dec s t); congruence. Qed.

Section Cond.
  Context {T : Type} {N : Num T}.
  (** Exactly the shape [S] and the values [f]. *)
  Definition is {A : Type} (S : list nat) (r : nd A) (f : list nat -> A) : Prop :=
    exists o, r = Some o /\ dims o = S /\ forall i, inb S i -> at_ o i = f i.
  Lemma rel_is {A} S (r : nd A) f : rel S r f -> cov S r -> is S r f.
  Proof using.
    intros H C. destruct H as (o & E & H & V). exists o. split; [exact E|].
    apply (rel_cov_dims S r f o); auto. exists o. auto.
  Qed.
  Lemma cond_is {A} S (c : arr bool) (x y : nd A) f g : dims c = [] -> is S x f -> is S y g ->
    is S (lax_cond (Some c) x y) (fun i => if at_ c [] then f i else g i).
  Proof using.
    intros Hc (o & -> & D & V) (q & -> & D' & V'). unfold lax_cond, obind. rewrite Hc, D, D', same_dims_refl.
    eexists. split; [reflexivity|]. destruct (at_ c []); auto.
  Qed.
  Lemma cond_none {A} (c : arr bool) (x y : nd A) : dims c <> [] -> lax_cond (Some c) x y = None.
  Proof using. intros H. unfold lax_cond, obind. destruct x, y; auto. destruct (dims c); [easy|reflexivity]. Qed.

  Definition uspec (U : nd T -> nd T -> nd T) (u : T -> T -> T) : Prop := forall chi al,
    (dims al = [] -> is (dims chi) (U (Some chi) (Some al)) (fun i => u (at_ chi i) (at_ al []))) /\
    (dims al <> [] -> U (Some chi) (Some al) = None).
  Lemma is_ext {A} S (r : nd A) f g : is S r f -> (forall i, inb S i -> f i = g i) -> is S r g.
  Proof using. intros (o & -> & D & V) X. exists o. split; [reflexivity|]. split; [exact D|]. intros. rewrite V, X; auto. Qed.
  Lemma ltl_scalar al : dims al = [] -> exists c, nd_lt (scalar (n_Z 0)) (Some al) = Some c /\ dims c = [] /\ at_ c [] = n_lt (n_Z 0) (at_ al []).
  Proof using. intros H. unfold nd_lt, lift2, obind, scalar. cbn [dims]. rewrite H. cbn [bcast]. eexists. split; [reflexivity|]. split; [reflexivity|]. cbn [at_]. unfold read. rewrite H. reflexivity. Qed.
  Lemma ltr_scalar al : dims al = [] -> exists c, nd_lt (Some al) (scalar (n_Z 0)) = Some c /\ dims c = [] /\ at_ c [] = n_lt (at_ al []) (n_Z 0).
  Proof using. intros H. unfold nd_lt, lift2, obind, scalar. cbn [dims]. rewrite H. cbn [bcast]. eexists. split; [reflexivity|]. split; [reflexivity|]. cbn [at_]. unfold read. rewrite H. reflexivity. Qed.
  Lemma lt_vector al : dims al <> [] -> exists c, nd_lt (scalar (n_Z 0)) (Some al) = Some c /\ dims c <> [].
  Proof using. intros H. unfold nd_lt, lift2, obind, scalar. cbn [dims bcast]. eexists. split; [reflexivity|exact H]. Qed.
  Lemma u_cond (chi al : arr T) (x y z : nd T) (f g h : list nat -> T) : dims al = [] -> is (dims chi) x f -> is (dims chi) y g -> is (dims chi) z h ->
    is (dims chi) (lax_cond (nd_lt (scalar (n_Z 0)) (Some al)) x (lax_cond (nd_lt (Some al) (scalar (n_Z 0))) y z))
      (fun i => where_ (n_gt (at_ al []) (n_Z 0)) (f i) (where_ (n_lt (at_ al []) (n_Z 0)) (g i) (h i))) .
  Proof using.
    intros H Hx Hy Hz. destruct (ltl_scalar al H) as (c & -> & D & E). destruct (ltr_scalar al H) as (c' & -> & D' & E').
    unfold where_, n_gt. rewrite <- E, <- E'. exact (cond_is _ _ _ _ _ _ D Hx (cond_is _ _ _ _ _ _ D' Hy Hz)).
  Qed.
  Lemma rel_leaf_al S (al : arr T) : dims al = [] -> rel S (Some al) (fun _ => at_ al []).
  Proof using. intros H. exists al. rewrite H. split; [reflexivity|]. split; [easy|]. intros i _. unfold read. now rewrite H. Qed.
  Lemma rel_leaf_id (a : arr T) : rel (dims a) (Some a) (fun i => at_ a i).
  Proof using. exists a. split; [reflexivity|]. split; [apply fits_refl|]. intros i Hi. unfold read. now rewrite pick_id. Qed.
End Cond.
Ltac relu H := unnd; repeat lazymatch goal with
  | |- rel ?S (full_like ?c ?x) _ => exact (rel_lift1 S (fun _ => c) x _ (rel_leaf_id _))
  | |- rel ?S (lift1 _ _) _ => apply (rel_lift1 S)
  | |- rel ?S (lift2 _ _ _) _ => apply (rel_lift2 S)
  | |- rel ?S (npow _ _) _ => apply (rel_pow S)
  | |- rel _ (scalar _) _ => apply rel_scalar
  | |- rel (dims ?a) (Some ?a) _ => apply rel_leaf_id
  | |- rel _ (Some _) _ => apply (rel_leaf_al _ _ H)
  end.
Ltac uf u U := intros chi al; split; intros H;
  [ unfold u, U; unnd; apply u_cond; auto; (apply rel_is; [relu H|unfold full_like; covs])
  | unfold U; unnd; destruct (lt_vector al H) as (c & -> & D); now apply cond_none ].
Section U.
  Context {T : Type} {N : Num T}.
  Lemma u0_nd : uspec (T := T) ufunc0_nd ufunc0. Proof using. uf @ufunc0 @ufunc0_nd. Qed.
  Lemma u1_nd : uspec (T := T) ufunc1_nd ufunc1. Proof using. uf @ufunc1 @ufunc1_nd. Qed.
  Lemma u2_nd : uspec (T := T) ufunc2_nd ufunc2. Proof using. uf @ufunc2 @ufunc2_nd. Qed.
  Lemma u3_nd : uspec (T := T) ufunc3_nd ufunc3. Proof using. uf @ufunc3 @ufunc3_nd. Qed.
  Lemma u4_nd : uspec (T := T) ufunc4_nd ufunc4. Proof using. uf @ufunc4 @ufunc4_nd. Qed.
  Lemma u5_nd : uspec (T := T) ufunc5_nd ufunc5. Proof using. uf @ufunc5 @ufunc5_nd. Qed.
End U.
Section UMore.
  Context {T : Type} {N : Num T}.
  Lemma urel U u S (chi : nd T) (al : arr T) f : uspec U u -> dims al = [] -> rel S chi f ->
    rel S (U chi (Some al)) (fun i => u (f i) (at_ al [])).
  Proof using.
    intros Hu Ha (o & -> & F & V). destruct (proj1 (Hu o al) Ha) as (q & E & D & W). exists q. split; [exact E|].
    rewrite D. split; [exact F|]. intros i Hi. unfold read. rewrite D. rewrite W by (eapply pick_inb; eauto). now rewrite <- V.
  Qed.
  Lemma ucov U u s (chi : arr T) (al : arr T) : uspec U u -> cov s (Some chi) -> cov s (U (Some chi) (Some al)).
  Proof using.
    intros Hu C o E. destruct (list_eq_dec Nat.eq_dec (dims al) []) as [Ha|Ha].
    - destruct (proj1 (Hu chi al) Ha) as (q & E' & D & _). rewrite E' in E. injection E as <-. rewrite D. now apply C.
    - rewrite (proj2 (Hu chi al) Ha) in E. discriminate.
  Qed.
  Lemma kepler_equ_uni_scalar chi al r0 s0 dt mu : dims al = [] ->
    elementwise [chi; r0; s0; dt; mu] (kepler_equ_uni_nd (Some chi) (Some al) (Some r0) (Some s0) (Some dt) (Some mu))
      (fun x => kepler_equ_uni (x chi) (at_ al []) (x r0) (x s0) (x dt) (x mu)).
  Proof using.
    intros Ha. unfold kepler_equ_uni_nd, kepler_equ_uni. apply ew.
    - intros S H. cbv beta. unnd.
      pose proof (rel_leaf S chi (H chi ltac:(cbn; tauto))) as Hc. pose proof (rel_leaf S r0 (H r0 ltac:(cbn; tauto))) as Hr.
      pose proof (rel_leaf S s0 (H s0 ltac:(cbn; tauto))) as Hs. pose proof (rel_leaf S dt (H dt ltac:(cbn; tauto))) as Hd.
      pose proof (rel_leaf S mu (H mu ltac:(cbn; tauto))) as Hm.
      repeat apply (rel_lift2 S); try apply (rel_lift1 S); auto.
      + exact (urel _ _ S _ al _ u1_nd Ha Hc).
      + exact (urel _ _ S _ al _ u2_nd Ha Hc).
      + exact (urel _ _ S _ al _ u3_nd Ha Hc).
    - intros x H. cbn in H. unnd.
      destruct H as [<-|[<-|[<-|[<-|[<-|[]]]]]].
      + apply cov_lift2l, cov_lift2r, (ucov _ _ _ _ _ u3_nd), cov_leaf.
      + covs.
      + covs.
      + covs.
      + covs.
  Qed.
  Lemma dchi_scalar chi al r0 s0 : dims al = [] ->
    elementwise [chi; r0; s0] (dchi_nd (Some chi) (Some al) (Some r0) (Some s0))
      (fun x => dchi (x chi) (at_ al []) (x r0) (x s0)).
  Proof using.
    intros Ha. unfold dchi_nd, dchi, equ_of_orb_uvi. apply ew.
    - intros S H. cbv beta. unnd.
      pose proof (rel_leaf S chi (H chi ltac:(cbn; tauto))) as Hc. pose proof (rel_leaf S r0 (H r0 ltac:(cbn; tauto))) as Hr.
      pose proof (rel_leaf S s0 (H s0 ltac:(cbn; tauto))) as Hs.
      repeat apply (rel_lift2 S); auto.
      + exact (urel _ _ S _ al _ u0_nd Ha Hc).
      + exact (urel _ _ S _ al _ u1_nd Ha Hc).
      + exact (urel _ _ S _ al _ u2_nd Ha Hc).
    - intros x H. cbn in H. unnd.
      destruct H as [<-|[<-|[<-|[]]]].
      + apply cov_lift2r, (ucov _ _ _ _ _ u2_nd), cov_leaf.
      + covs.
      + covs.
  Qed.
  Lemma lift2_none_l {A B C} (g : A -> B -> C) y : lift2 g None y = None. Proof using. reflexivity. Qed.
  Lemma lift2_none_r {A B C} (g : A -> B -> C) x : lift2 g x None = None. Proof using. destruct x; reflexivity. Qed.
  Lemma uni_vector_alpha chi (al r0 s0 dt mu : arr T) : dims al <> [] ->
    kepler_equ_uni_nd (Some chi) (Some al) (Some r0) (Some s0) (Some dt) (Some mu) = None /\
    dchi_nd (Some chi) (Some al) (Some r0) (Some s0) = None.
  Proof using.
    intros Ha. unfold kepler_equ_uni_nd, dchi_nd, equ_of_orb_uvi.
    rewrite (proj2 (u1_nd chi al) Ha), (proj2 (u2_nd chi al) Ha), (proj2 (u3_nd chi al) Ha). unnd. split.
    - now rewrite !lift2_none_r, !lift2_none_l.
    - now rewrite !lift2_none_r.
  Qed.
End UMore.

(** ** Columns and rows *)
Section Vec.
  Context {T : Type} {N : Num T}.
  Definition crel (S : list nat) (r : nd T) (f : list nat -> T) : Prop := rel (1 :: S) r (fun i => f (tl i)).
  Definition vrel (S : list nat) (r : nd T) (f : list nat -> V3 T) : Prop :=
    exists o s, r = Some o /\ dims o = 3 :: s /\ fits s S /\ forall i, inb S i -> row o i = f i.
  Lemma inb_cons n k s i : inb (n :: s) (k :: i) <-> k < n /\ inb s i.
  Proof using. split; [intros H; inversion H; auto|intros [H H']; now constructor]. Qed.
  Lemma inb1 S i : inb (1 :: S) i -> exists j, i = 0 :: j /\ inb S j.
  Proof using. intros H. inversion H; subst. exists l'. split; [f_equal; lia|assumption]. Qed.
  Lemma pick_cons3 s k i : pick (3 :: s) (k :: i) = k :: pick s i.
  Proof using. reflexivity. Qed.
  Lemma row_vec (o : arr T) s i : dims o = 3 :: s -> row o i = vec_at o (pick s i).
  Proof using. intros H. unfold row, read, vec_at. now rewrite H. Qed.
  Lemma row_comp (o : arr T) s i k : dims o = 3 :: s -> k < 3 -> at_ o (k :: pick s i) = comp k (row o i).
  Proof using.
    intros H Hk. rewrite (row_vec o s i H). unfold comp, vec_at. cbn [c0 c1 c2].
    destruct k as [|[|[|]]]; [reflexivity..|lia].
  Qed.
  Lemma v_leaf S (a : arr T) s : vectors a s -> fits s S -> vrel S (Some a) (row a).
  Proof using. intros H F. exists a, s. auto. Qed.
  Lemma c_leaf S (a : arr T) s : column a s -> fits s S -> crel S (Some a) (cell a).
  Proof using.
    intros H F. exists a. split; [reflexivity|]. split; [destruct H as [-> | [-> _]]; cbn; auto|].
    intros i Hi. apply inb1 in Hi. destruct Hi as (j & -> & _). reflexivity.
  Qed.
  Lemma pick_pick' s u i : fits s u -> pick s (pick u i) = pick s i.
  Proof using. apply pick_pick. Qed.
  Lemma mk_vrel S s (f : list nat -> V3 T) F : fits s S ->
    (forall i k, inb S i -> k < 3 -> F (k :: pick s i) = comp k (f i)) -> vrel S (Some (mkArr (3 :: s) F)) f.
  Proof using.
    intros Fs H. exists (mkArr (3 :: s) F), s. split; [reflexivity|]. split; [reflexivity|]. split; [exact Fs|].
    intros i Hi. rewrite (row_vec _ s) by reflexivity. unfold vec_at. cbn [at_]. rewrite !H by (auto; lia). unfold comp. cbn [sel3].
    destruct (f i); reflexivity.
  Qed.
  Lemma v_cross S x y f g : vrel S x f -> vrel S y g -> vrel S (cross_nd x y) (fun i => vcross (f i) (g i)).
  Proof using.
    intros (o & s & -> & D & F & V) (q & t & -> & D' & F' & V'). unfold cross_nd, obind. rewrite D, D'.
    destruct (bcast_some _ _ _ F F') as [u U]. rewrite U. apply mk_vrel; [eapply bcast_lub; eauto|].
    intros i k Hi Hk. cbn [hd tl]. rewrite !pick_pick; [|now apply bcast_r in U|now apply bcast_l in U].
    rewrite <- (row_vec o s), <- (row_vec q t), V, V' by auto. reflexivity.
  Qed.
  Lemma v_lift2 S op x y f g : vrel S x f -> vrel S y g -> vrel S (lift2 op x y) (fun i => vzip3 op (f i) (g i)).
  Proof using.
    intros (o & s & -> & D & F & V) (q & t & -> & D' & F' & V'). unfold lift2, obind. rewrite D, D'.
    destruct (bcast_some _ _ _ F F') as [u U]. cbn [bcast bcast1 Nat.eqb]. rewrite U. apply mk_vrel; [eapply bcast_lub; eauto|].
    intros i k Hi Hk. unfold read. rewrite D, D', !pick_cons3, !pick_pick; [|now apply bcast_r in U|now apply bcast_l in U].
    rewrite (row_comp o s), (row_comp q t), V, V' by auto. unfold comp, vzip3. cbn [c0 c1 c2]. destruct k as [|[|[|]]]; [reflexivity..|lia].
  Qed.
  Lemma v_lift2c S op x y f g : vrel S x f -> crel S y g -> vrel S (lift2 op x y) (fun i => vmap3 (fun a => op a (g i)) (f i)).
  Proof using.
    intros (o & s & -> & D & F & V) (q & -> & F' & V'). unfold lift2, obind.
    assert (R : forall i k, inb S i -> k < 3 -> read q (k :: i) = g i).
    { intros i k Hi _. transitivity (read q (0 :: i)); [|apply (V' (0 :: i)), inb_cons; auto]. unfold read.
      destruct (dims q) as [|a w]; [reflexivity|]. destruct F' as [[-> | ->] _]; reflexivity. }
    destruct (dims q) as [|a w] eqn:Q.
    - rewrite bcast_nil_r, D. apply mk_vrel; [exact F|]. intros i k Hi Hk.
      assert (P : pick (dims o) (k :: pick s i) = k :: pick s i) by (rewrite D, pick_cons3, pick_pick; [reflexivity|apply fits_refl]).
      unfold read at 1. rewrite P, (row_comp o s), V by auto. pose proof (R i k Hi Hk) as Rk. unfold read in *. rewrite Q in *. cbn [pick] in *. rewrite Rk.
      unfold comp, vmap3. cbn [c0 c1 c2]. destruct k as [|[|[|]]]; [reflexivity..|lia].
    - destruct F' as [E F2]. assert (a = 1) as -> by (destruct E; auto).
      destruct (bcast_some s w S F F2) as [u U]; rewrite D; cbn [bcast bcast1 Nat.eqb]; rewrite U;
        apply mk_vrel; [eapply bcast_lub; eauto|];
        intros i k Hi Hk; pose proof (R i k Hi Hk) as Rk; unfold read in *; rewrite D, Q in *;
        rewrite pick_cons3, (pick_pick s u) by (now apply bcast_l in U);
        rewrite (row_comp o s), V by auto; cbn [pick Nat.eqb hd tl] in *; rewrite (pick_pick w u) by (now apply bcast_r in U);
        rewrite Rk; unfold comp, vmap3; cbn [c0 c1 c2]; destruct k as [|[|[|]]]; [reflexivity..|lia].
  Qed.
  Lemma v_lift2c' S op x y f g : crel S x g -> vrel S y f -> vrel S (lift2 op x y) (fun i => vmap3 (fun a => op (g i) a) (f i)).
  Proof using.
    intros (q & -> & F' & V') (o & s & -> & D & F & V). unfold lift2, obind.
    assert (R : forall i k, inb S i -> k < 3 -> read q (k :: i) = g i).
    { intros i k Hi _. transitivity (read q (0 :: i)); [|apply (V' (0 :: i)), inb_cons; auto]. unfold read.
      destruct (dims q) as [|a w]; [reflexivity|]. destruct F' as [[-> | ->] _]; reflexivity. }
    destruct (dims q) as [|a w] eqn:Q.
    - cbn [bcast]. rewrite D. apply mk_vrel; [exact F|]. intros i k Hi Hk.
      assert (P : pick (dims o) (k :: pick s i) = k :: pick s i) by (rewrite D, pick_cons3, pick_pick; [reflexivity|apply fits_refl]).
      unfold read at 2. rewrite P, (row_comp o s), V by auto. pose proof (R i k Hi Hk) as Rk. unfold read in *. rewrite Q in *. cbn [pick] in *. rewrite Rk.
      unfold comp, vmap3. cbn [c0 c1 c2]. destruct k as [|[|[|]]]; [reflexivity..|lia].
    - destruct F' as [E F2]. assert (a = 1) as -> by (destruct E; auto).
      destruct (bcast_some w s S F2 F) as [u U]; rewrite D; cbn [bcast bcast1 Nat.eqb]; rewrite U;
        apply mk_vrel; [eapply bcast_lub; eauto|];
        intros i k Hi Hk; pose proof (R i k Hi Hk) as Rk; unfold read in *; rewrite D, Q in *;
        rewrite pick_cons3, (pick_pick s u) by (now apply bcast_r in U);
        rewrite (row_comp o s), V by auto; cbn [pick Nat.eqb hd tl] in *; rewrite (pick_pick w u) by (now apply bcast_l in U);
        rewrite Rk; unfold comp, vmap3; cbn [c0 c1 c2]; destruct k as [|[|[|]]]; [reflexivity..|lia].
  Qed.
  Lemma c_sum S x f : vrel S x f -> crel S (sum_last x) (fun i => n_add (n_add (c0 (f i)) (c1 (f i))) (c2 (f i))).
  Proof using.
    intros (o & s & -> & D & F & V). unfold sum_last, obind. rewrite D. eexists. split; [reflexivity|]. cbn [dims].
    split; [cbn; auto|]. intros i Hi. apply inb1 in Hi. destruct Hi as (j & -> & Hj). unfold read. cbn [dims at_ pick Nat.eqb hd tl sum_n sum_from].
    rewrite !(row_comp o s), V by (auto; lia). reflexivity.
  Qed.
  Lemma c_norm S x f : vrel S x f -> crel S (norm_last x) (fun i => vector_norm (f i)).
  Proof using.
    intros H. unfold norm_last, vector_norm, vinner. apply (rel_lift1 (1 :: S) n_sqrt).
    exact (c_sum S _ _ (v_lift2 S n_mul x x f f H H)).
  Qed.
  Lemma c_inner S x y f g : vrel S x f -> vrel S y g -> crel S (sum_last (lift2 n_mul x y)) (fun i => vinner (f i) (g i)).
  Proof using. intros H H'. exact (c_sum S _ _ (v_lift2 S n_mul x y f g H H')). Qed.
  Lemma c_slice S x f k : k < 3 -> vrel S x f -> crel S (slice_last k x) (fun i => comp k (f i)).
  Proof using.
    intros Hk (o & s & -> & D & F & V). unfold slice_last, obind. rewrite D. replace (k <? 3) with true by (symmetry; now apply Nat.ltb_lt).
    eexists. split; [reflexivity|]. cbn [dims]. split; [cbn; auto|]. intros i Hi. apply inb1 in Hi. destruct Hi as (j & -> & Hj).
    unfold read. cbn [dims at_ pick Nat.eqb hd tl]. rewrite Nat.add_0_r, (row_comp o s), V by auto. reflexivity.
  Qed.
  Lemma c_lift1 S op x f : crel S x f -> crel S (lift1 op x) (fun i => op (f i)).
  Proof using. apply (rel_lift1 (1 :: S) op). Qed.
  Lemma c_lift2 S op x y f g : crel S x f -> crel S y g -> crel S (lift2 op x y) (fun i => op (f i) (g i)).
  Proof using. intros H H'. exact (rel_lift2 (1 :: S) op _ _ _ _ H H'). Qed.
  Lemma c_pow S x f n : crel S x f -> crel S (@npow _ Num_nd x n) (fun i => npow (f i) n).
  Proof using. intros H. exact (rel_pow (1 :: S) x _ n H). Qed.
  Lemma c_scalar S c : crel S (scalar c) (fun _ => c).
  Proof using. apply rel_scalar. Qed.
  Lemma c_where S c x y (fc : list nat -> bool) f g : rel (1 :: S) c (fun i => fc (tl i)) -> crel S x f -> crel S y g ->
    crel S (nd_where c x y) (fun i => if fc i then f i else g i).
  Proof using. intros H Hx Hy. exact (rel_where (1 :: S) _ _ _ _ _ _ H Hx Hy). Qed.
  Lemma c_angle S x f : crel S x f ->
    crel S (nd_where (nd_lt x (scalar (n_Z 0))) (lift2 n_add (lift2 n_mul (scalar (n_Z 2)) (scalar n_pi)) x) x)
      (fun i => where_ (n_lt (f i) (n_Z 0)) (n_add (n_mul (n_Z 2) n_pi) (f i)) (f i)).
  Proof using.
    intros H. apply (c_where S _ _ _ (fun i => n_lt (f i) (n_Z 0))).
    - exact (rel_lift2 (1 :: S) n_lt _ _ _ _ H (rel_scalar (1 :: S) (n_Z 0))).
    - apply (c_lift2 S n_add); [|exact H]. apply (c_lift2 S n_mul); apply c_scalar.
    - exact H.
  Qed.

  (** ** Batch axes of a result *)
  Definition bcov (s : list nat) (r : nd T) : Prop := forall o, r = Some o -> exists n u, dims o = n :: u /\ fits s u.
  Lemma b_leaf (a : arr T) s n : dims a = n :: s -> bcov s (Some a).
  Proof using. intros H o [= <-]. exists n, s. split; [exact H|apply fits_refl]. Qed.
  Lemma b_lift1 s (op : T -> T) x : bcov s x -> bcov s (lift1 op x).
  Proof using. intros H o. destruct x as [a|]; [|easy]. intros [= <-]. cbn. now apply H. Qed.
  Lemma b_lift2l s (op : T -> T -> T) x y : bcov s x -> bcov s (lift2 op x y).
  Proof using.
    intros H o. destruct x as [a|]; [|easy]. destruct y as [b|]; [|easy]. unfold lift2, obind.
    destruct (bcast (dims a) (dims b)) as [u|] eqn:U; [|easy]. intros [= <-]. cbn. destruct (H a eq_refl) as (n & w & D & F).
    apply bcast_l in U. rewrite D in U. destruct u as [|m u]; [easy|]. exists m, u. split; [reflexivity|]. eapply fits_trans; [exact F|]. apply U.
  Qed.
  Lemma b_lift2r s (op : T -> T -> T) x y : bcov s y -> bcov s (lift2 op x y).
  Proof using.
    intros H o. destruct x as [a|]; [|easy]. destruct y as [b|]; [|easy]. unfold lift2, obind.
    destruct (bcast (dims a) (dims b)) as [u|] eqn:U; [|easy]. intros [= <-]. cbn. destruct (H b eq_refl) as (n & w & D & F).
    apply bcast_r in U. rewrite D in U. destruct u as [|m u]; [easy|]. exists m, u. split; [reflexivity|]. eapply fits_trans; [exact F|]. apply U.
  Qed.
  Lemma b_mu m (op : T -> T -> T) x (mu : arr T) : column mu m -> bcov [] x -> bcov m (lift2 op x (Some mu)).
  Proof using.
    intros [H|[H ->]] B; [apply b_lift2r; now apply (b_leaf mu m 1)|now apply b_lift2l].
  Qed.
  Lemma b_pow s x n : bcov s x -> bcov s (@npow (nd T) Num_nd x n).
  Proof using.
    unfold npow. intros H.
    assert (G : forall n x, bcov s x -> bcov s (@npow_aux (nd T) Num_nd None x n) /\
      forall a, bcov s a -> bcov s (@npow_aux (nd T) Num_nd (Some a) x n)).
    { clear. induction n as [n IH|n IH|]; intros x H; cbn [npow_aux mul_opt].
      - destruct (IH _ (b_lift2l s n_mul x x H)) as [_ B]. split; [now apply B|].
        intros a Ha. apply B. exact (b_lift2l s n_mul a x Ha).
      - apply IH. exact (b_lift2l s n_mul x x H).
      - split; [exact H|]. intros a Ha. exact (b_lift2l s n_mul a x Ha). }
    apply G. exact H.
  Qed.
  Lemma b_crossl s x y : bcov s x -> bcov s (cross_nd x y).
  Proof using.
    intros H o. destruct x as [a|]; [|easy]. destruct y as [b|]; [|easy]. unfold cross_nd, obind.
    destruct (H a eq_refl) as (n & w & D & F). rewrite D. do 4 (destruct n as [|n]; try easy).
    destruct (dims b) as [|[|[|[|[|]]]] t]; try easy. destruct (bcast w t) as [u|] eqn:U; [|easy]. intros [= <-]. cbn.
    exists 3, u. split; [reflexivity|]. eapply fits_trans; [exact F|]. now apply bcast_l in U.
  Qed.
  Lemma b_crossr s x y : bcov s y -> bcov s (cross_nd x y).
  Proof using.
    intros H o. destruct x as [a|]; [|easy]. destruct y as [b|]; [|easy]. unfold cross_nd, obind.
    destruct (H b eq_refl) as (n & w & D & F). rewrite D.
    destruct (dims a) as [|[|[|[|[|]]]] t]; try easy. do 4 (destruct n as [|n]; try easy). destruct (bcast t w) as [u|] eqn:U; [|easy]. intros [= <-]. cbn.
    exists 3, u. split; [reflexivity|]. eapply fits_trans; [exact F|]. now apply bcast_r in U.
  Qed.
  Lemma b_sum s x : bcov s x -> bcov s (sum_last x).
  Proof using.
    intros H o. destruct x as [a|]; [|easy]. unfold sum_last, obind. destruct (H a eq_refl) as (n & w & D & F). rewrite D.
    intros [= <-]. cbn. eauto.
  Qed.
  Lemma b_slice s k x : bcov s x -> bcov s (slice_last k x).
  Proof using.
    intros H o. destruct x as [a|]; [|easy]. unfold slice_last, obind. destruct (H a eq_refl) as (n & w & D & F). rewrite D.
    intros [= <-]. cbn. eauto.
  Qed.
  Lemma b_norm s x : bcov s x -> bcov s (norm_last x).
  Proof using. intros H. unfold norm_last. apply b_lift1, b_sum, b_lift2l, H. Qed.
  Lemma b_angle s x c y : bcov s x -> bcov s (nd_where c y x).
  Proof using.
    intros H o. unfold nd_where, lift2, obind. destruct c as [cc|]; [|easy]. destruct y as [b|]; [|easy]. destruct x as [a|]; [|easy].
    destruct (bcast (dims b) (dims a)) as [u|] eqn:U; [|easy]. cbn [dims]. destruct (bcast (dims cc) u) as [w|] eqn:W; [|easy]. intros [= <-]. cbn.
    destruct (H a eq_refl) as (n & v & D & F). apply bcast_r in U, W. rewrite D in U. pose proof (fits_trans _ _ _ U W) as X.
    destruct w as [|m w]; [easy|]. exists m, w. split; [reflexivity|]. eapply fits_trans; [exact F|]. apply X.
  Qed.
  (** [squeeze] *)
  Lemma sq_rel S x f : crel S x f -> bcov [] x -> rel S (squeeze_last x) f.
  Proof using.
    intros (o & -> & F & V) B. destruct (B o eq_refl) as (n & u & D & _). unfold squeeze_last, obind. rewrite D in *.
    destruct F as [E F]. assert (n = 1) as -> by (destruct E; auto). eexists. split; [reflexivity|]. cbn [dims]. split; [exact F|].
    intros i Hi. change (f i) with (f (tl (0 :: i))). rewrite <- V by (apply inb_cons; auto). unfold read. rewrite D. reflexivity.
  Qed.
  Lemma sq_cov s x : bcov s x -> cov s (squeeze_last x).
  Proof using.
    intros H o. destruct x as [a|]; [|easy]. destruct (H a eq_refl) as (n & u & D & F). unfold squeeze_last, obind. rewrite D.
    destruct n as [|[|n]]; try easy. intros [= <-]. exact F.
  Qed.
  Lemma sq_some (x : nd T) o : squeeze_last x = Some o -> exists a, x = Some a /\ dims a = 1 :: dims o.
  Proof using.
    destruct x as [a|]; [|easy]. unfold squeeze_last, obind. destruct (dims a) as [|[|[|n]] s] eqn:D; try easy. intros [= <-]. eauto.
  Qed.
  Lemma lift1_some {A B} (op : A -> B) x o : lift1 op x = Some o -> exists a, x = Some a /\ dims a = dims o.
  Proof using. destruct x as [a|]; [|easy]. intros [= <-]. eauto. Qed.
  Lemma lift2_some {A B C} (op : A -> B -> C) x y o : lift2 op x y = Some o ->
    exists a b, x = Some a /\ y = Some b /\ fits (dims a) (dims o) /\ fits (dims b) (dims o).
  Proof using.
    destruct x as [a|]; [|easy]. destruct y as [b|]; [|easy]. unfold lift2, obind. destruct (bcast (dims a) (dims b)) as [u|] eqn:U; [|easy].
    intros [= <-]. exists a, b. cbn. split; [reflexivity|]. split; [reflexivity|]. split; [now apply bcast_l in U|now apply bcast_r in U].
  Qed.
  Lemma cross_some (x y : nd T) o : cross_nd x y = Some o -> exists a b s t u, x = Some a /\ y = Some b /\
    dims a = 3 :: s /\ dims b = 3 :: t /\ dims o = 3 :: u /\ fits s u /\ fits t u.
  Proof using.
    destruct x as [a|]; [|easy]. destruct y as [b|]; [|easy]. unfold cross_nd, obind.
    destruct (dims a) as [|[|[|[|[|]]]] s] eqn:D; try easy. destruct (dims b) as [|[|[|[|[|]]]] t] eqn:D'; try easy.
    destruct (bcast s t) as [u|] eqn:U; [|easy]. intros [= <-]. exists a, b, s, t, u.
    repeat (split; [solve [auto|apply (bcast_l _ _ _ U)]|]). apply (bcast_r _ _ _ U).
  Qed.
End Vec.
