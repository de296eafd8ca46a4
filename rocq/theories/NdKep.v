(** * NdKep: shapes in [kepler], [dxdx0] and the Newton loops (proofs for C55) *)
From Coq Require Import List Arith Lia ZArith Bool.
Import ListNotations.
From Verif Require Import Num Nd NdModel SpecNd NdLib NdElem NdVec NdRv NdCoe OrbIntegrals Uniformulas Lagrange KepEqu StateTrans PropKepler LoopFacts.

Ltac rtree := repeat lazymatch goal with
  | |- rel _ (scalar _) _ => apply rel_scalar
  | |- rel ?S (lift1 _ _) _ => apply (rel_lift1 S)
  | |- rel ?S (lift2 _ _ _) _ => apply (rel_lift2 S)
  | |- rel ?S (npow _ _) _ => apply (rel_pow S)
  end.

Section Kep.
  Context {T : Type} {N : Num T}.
  (** A number: shape () or (1,). *)
  Definition srel (x : nd T) (c : T) : Prop := rel [1] x (fun _ => c).
  Lemma inb_zero : inb [1] [0]. Proof using. repeat constructor. Qed.
  Lemma s_mono k S (x : nd T) c : srel x c -> rel (k :: S) x (fun _ => c).
  Proof using.
    intros (o & -> & F & V). exists o. split; [reflexivity|]. pose proof (V [0] inb_zero) as V0. unfold read in *.
    destruct (dims o) as [|a [|b w]].
    - split; [exact I|]. intros i _. exact V0.
    - destruct F as [F _]. assert (a = 1) as -> by (destruct F; auto). split; [cbn; auto|]. intros i _. exact V0.
    - destruct F as [_ []].
  Qed.
  Lemma s_leaf (a : arr T) : dims a = [] -> srel (Some a) (at_ a []).
  Proof using. intros H. exists a. rewrite H. split; [reflexivity|]. split; [exact I|]. intros i _. unfold read. now rewrite H. Qed.
  Lemma s_norm (a : arr T) : vectors a [] -> is [] (norm_all (Some a)) (fun _ => vector_norm (row a [])).
  Proof using.
    intros H. unfold norm_all, obind. cbv zeta. red in H. rewrite H. eexists. split; [reflexivity|]. split; [reflexivity|]. intros i _. cbn [at_ sum_n sum_from].
    unfold vector_norm, vinner, row, read. rewrite H. reflexivity.
  Qed.
  Lemma is_rel S0 S (x : nd T) c : is [] x (fun _ => c) -> S0 = S -> rel S x (fun _ => c).
  Proof using. intros (o & -> & D & V) _. exists o. rewrite D. split; [reflexivity|]. split; [exact I|]. intros i _. unfold read. rewrite D. apply V. constructor. Qed.
  Lemma is0_srel (x : nd T) c : is [] x (fun _ => c) -> srel x c.
  Proof using. intros H. now apply (is_rel [1]). Qed.
  Lemma s_sigma (p v m : arr T) : vectors p [] -> vectors v [] -> dims m = [] -> srel (sigma_fn_nd (Some p) (Some v) (Some m)) (sigma_fn (row p []) (row v []) (at_ m [])).
  Proof using.
    intros Hp Hv Hm. destruct (sig_c p v m [] [] [] Hp Hv (or_intror (conj Hm eq_refl)) [] I I I) as (o & E & F & V).
    exists o. split; [exact E|]. split; [exact F|]. intros i Hi. rewrite V by exact Hi. apply inb1 in Hi. destruct Hi as (j & -> & Hj).
    inversion Hj; subst. cbn [tl]. unfold cell, read. now rewrite Hm.
  Qed.
  Lemma sigma_dims (p v m : arr T) : vectors p [] -> vectors v [] -> dims m = [] -> exists o, sigma_fn_nd (Some p) (Some v) (Some m) = Some o /\ dims o = [1].
  Proof using.
    intros Hp Hv Hm. destruct (sigma_rows p v m [] [] [] Hp Hv (or_intror (conj Hm eq_refl))) as (o & u & E & D & [C1 C2] & _).
    { exists []. intros s. cbn. intros [<-|[<-|[<-|[]]]]; exact I. }
    exists o. split; [exact E|]. rewrite D. f_equal. assert (F : fits u []). { apply C2. intros s. cbn. intros [<-|[<-|[<-|[]]]]; exact I. }
    now destruct u.
  Qed.
  Lemma item_one (o : arr T) c : dims o = [] \/ dims o = [1] -> srel (Some o) c -> item (Some o) = Some c.
  Proof using.
    intros H (q & E & _ & V). injection E as <-. pose proof (V [0] inb_zero) as V0. unfold read in V0. unfold item, obind.
    destruct H as [H|H]; rewrite H in *; cbn in *; now rewrite V0.
  Qed.

  Section Prop_.
    Variables (ts r0 v0 mu : arr T).
    Hypotheses (Hr : vectors r0 []) (Hv : vectors v0 []) (Hm : dims mu = []).
    Let r := row r0 []. Let v := row v0 []. Let m := at_ mu [].
    Let al := alpha_of (vector_norm r) (vector_norm v) m.
    Let sg := sigma_fn r v m.
    Let A : nd T := @n_div _ Num_nd (@n_dec _ Num_nd 1 1) (@semimajor_axis _ Num_nd (norm_all (Some r0)) (norm_all (Some v0)) (Some mu)).
    Lemma alpha_is : exists a, A = Some a /\ dims a = [] /\ at_ a [] = al.
    Proof using Hr Hv Hm.
      assert (K : rel [] A (fun _ => al)).
      { unfold A, al, alpha_of, semimajor_axis. unnd. pose proof (is_rel _ _ _ _ (s_norm r0 Hr) eq_refl : rel [] _ _) as K1.
        pose proof (is_rel _ _ _ _ (s_norm v0 Hv) eq_refl : rel [] _ _) as K2.
        assert (K3 : rel [] (Some mu) (fun _ => m)) by (exists mu; rewrite Hm; split; [reflexivity|]; split; [exact I|]; intros i _; unfold read; now rewrite Hm).
        rtree; first [exact K1|exact K2|exact K3]. }
      destruct K as (a & E & F & V). exists a. split; [exact E|]. assert (D : dims a = []) by (now destruct (dims a)). split; [exact D|].
      rewrite <- (V [] ltac:(constructor)). unfold read. now rewrite D.
    Qed.
    Variables (n : nat) (chis : list T) (chi : arr T).
    Hypotheses (Dc : dims chi = [n]) (Vc : forall k, k < n -> at_ chi [k] = nth k chis (n_Z 0)).
    Let ch (i : list nat) : T := nth (hd 0 i) chis (n_Z 0).
    Lemma chi_rel : rel [n] (Some chi) ch.
    Proof using Dc Vc.
      exists chi. rewrite Dc. split; [reflexivity|]. split; [apply fits_refl|]. intros i Hi. unfold read. rewrite Dc, pick_id by exact Hi.
      inversion Hi as [|? k ? j Hk Hj]; subst. inversion Hj; subst. now apply Vc.
    Qed.
    Variables (a : arr T).
    Hypotheses (Da : dims a = []) (Va : at_ a [] = al).
    Lemma u_rel U u : uspec U u -> rel [n] (U (Some chi) (Some a)) (fun i => u (ch i) al) /\ cov [n] (U (Some chi) (Some a)).
    Proof using Dc Vc Da Va.
      intros Hu. split.
      - rewrite <- Va. apply (urel U u [n] (Some chi) a ch Hu Da), chi_rel.
      - apply (ucov U u [n] chi a Hu). rewrite <- Dc. apply cov_leaf.
    Qed.
    Let F := @lagrange_F _ Num_nd (ufunc2_nd (Some chi) (Some a)) (norm_all (Some r0)).
    Let G := @lagrange_G _ Num_nd (ufunc1_nd (Some chi) (Some a)) (ufunc2_nd (Some chi) (Some a)) (sigma_fn_nd (Some r0) (Some v0) (Some mu)) (norm_all (Some r0)) (Some mu).
    Let R := @equ_of_orb_uvi _ Num_nd (ufunc0_nd (Some chi) (Some a)) (ufunc1_nd (Some chi) (Some a)) (ufunc2_nd (Some chi) (Some a)) (norm_all (Some r0)) (sigma_fn_nd (Some r0) (Some v0) (Some mu)).
    Let Ft := @lagrange_Ft _ Num_nd (ufunc1_nd (Some chi) (Some a)) R (norm_all (Some r0)) (Some mu).
    Let Gt := @lagrange_Gt _ Num_nd (ufunc2_nd (Some chi) (Some a)) R.
    Lemma coefs : exists f g ft gt : list nat -> T,
      (rel [n] F f /\ cov [n] F) /\ (rel [n] G g /\ cov [n] G) /\ (rel [n] Ft ft /\ cov [n] Ft) /\ (rel [n] Gt gt /\ cov [n] Gt) /\
      forall i, lagrange_prop (f i) (g i) (ft i) (gt i) r v = state_at_chi (ch i) al sg (vector_norm r) r v m.
    Proof using Dc Vc Da Va Hr Hv Hm.
      destruct (u_rel _ _ u0_nd) as [U0 C0]. destruct (u_rel _ _ u1_nd) as [U1 C1]. destruct (u_rel _ _ u2_nd) as [U2 C2].
      pose proof (is_rel _ _ _ _ (s_norm r0 Hr) eq_refl : rel [n] _ _) as Kr.
      pose proof (s_mono n [] _ _ (s_leaf mu Hm)) as Km. pose proof (s_mono n [] _ _ (s_sigma r0 v0 mu Hr Hv Hm)) as Ks.
      assert (KR : rel [n] R (fun i => equ_of_orb_uvi (ufunc0 (ch i) al) (ufunc1 (ch i) al) (ufunc2 (ch i) al) (vector_norm r) sg)).
      { unfold R, equ_of_orb_uvi. unnd.
        rtree; first [exact U0|exact U1|exact U2|exact Kr|exact Km|exact Ks]. }
      unfold state_at_chi.
      exists (fun i => lagrange_F (ufunc2 (ch i) al) (vector_norm r)).
      exists (fun i => lagrange_G (ufunc1 (ch i) al) (ufunc2 (ch i) al) sg (vector_norm r) m).
      exists (fun i => lagrange_Ft (ufunc1 (ch i) al) (equ_of_orb_uvi (ufunc0 (ch i) al) (ufunc1 (ch i) al) (ufunc2 (ch i) al) (vector_norm r) sg) (vector_norm r) m).
      exists (fun i => lagrange_Gt (ufunc2 (ch i) al) (equ_of_orb_uvi (ufunc0 (ch i) al) (ufunc1 (ch i) al) (ufunc2 (ch i) al) (vector_norm r) sg)).
      unfold F, G, Ft, Gt, lagrange_F, lagrange_G, lagrange_Ft, lagrange_Gt. unnd.
      split; [split|split; [split|split; [split|split; [split|reflexivity]]]].
      1,3,5,7: rtree; first [exact KR|exact U0|exact U1|exact U2|exact Kr|exact Km|exact Ks].
      - apply cov_lift2r, cov_lift2l, C2.
      - apply cov_lift2l, cov_lift2r, cov_lift2r, C2.
      - apply cov_lift2l, cov_lift2r, C1.
      - apply cov_lift2r, cov_lift2l, C2.
    Qed.
    Lemma newaxis_c (x : nd T) f : rel [n] x f -> cov [n] x -> crel [n] (newaxis x) f /\ bcov [n] (newaxis x).
    Proof using.
      intros H C. destruct (rel_is _ _ _ H C) as (o & E & D & _). rewrite E in *. unfold newaxis. cbn [obind]. rewrite D.
      split; [now apply c_expand|]. now apply b_expand.
    Qed.
    Lemma comb_v (x y : nd T) f g : rel [n] x f -> cov [n] x -> rel [n] y g -> cov [n] y ->
      exists o, lift2 n_add (lift2 n_mul (newaxis x) (Some r0)) (lift2 n_mul (newaxis y) (Some v0)) = Some o /\ vectors o [n] /\
        forall k, k < n -> row o [k] = vadd (vscale (f [k]) r) (vscale (g [k]) v).
    Proof using Hr Hv.
      intros Hx Cx Hy Cy. destruct (newaxis_c x f Hx Cx) as [Nx Bx]. destruct (newaxis_c y g Hy Cy) as [Ny By].
      assert (K : vrel [n] (lift2 n_add (lift2 n_mul (newaxis x) (Some r0)) (lift2 n_mul (newaxis y) (Some v0)))
        (fun i => vadd (vscale (f i) (row r0 i)) (vscale (g i) (row v0 i)))).
      { apply (v_lift2 [n] n_add _ _ (fun i => vscale (f i) (row r0 i)) (fun i => vscale (g i) (row v0 i))).
        - exact (v_lift2c' [n] n_mul _ _ (row r0) f Nx (v_leaf [n] r0 [] Hr I)).
        - exact (v_lift2c' [n] n_mul _ _ (row v0) g Ny (v_leaf [n] v0 [] Hv I)). }
      assert (B : bcov [n] (lift2 n_add (lift2 n_mul (newaxis x) (Some r0)) (lift2 n_mul (newaxis y) (Some v0)))) by now apply b_lift2l, b_lift2l.
      destruct K as (o & s & E & D & Fs & V). exists o. split; [exact E|]. destruct (B o E) as (n' & u & D' & Fu). rewrite D in D'. injection D' as <- <-.
      pose proof (fits_antisym _ _ Fs Fu) as ->. split; [exact D|]. intros k Hk. rewrite V by (repeat constructor; exact Hk).
      unfold r, v, row, read. rewrite Hr, Hv. reflexivity.
    Qed.
  End Prop_.

  (** The elements of the array of times. *)
  Definition times (a : arr T) : list T := match dims a with [n] => map (fun k => at_ a [k]) (seq 0 n) | _ => [at_ a []] end.
  Lemma kepler_rows (ts r0 v0 mu : arr T) : vectors r0 [] -> vectors v0 [] -> dims mu = [] -> (dims ts = [] \/ exists n, dims ts = [n]) ->
    exists rr vv, kepler_nd (Some ts) (Some r0) (Some v0) (Some mu) = Some (rr, vv) /\
      vectors rr [List.length (times ts)] /\ vectors vv [List.length (times ts)] /\
      forall k, k < List.length (times ts) -> nth_error (kepler (times ts) (row r0 []) (row v0 []) (at_ mu [])) k = Some (row rr [k], row vv [k]).
  Proof using.
    intros Hr Hv Hm Ht. set (n := List.length (times ts)).
    destruct (alpha_is r0 v0 mu Hr Hv Hm) as (a & Ea & Da & Va).
    destruct (sigma_dims r0 v0 mu Hr Hv Hm) as (s & Es & Ds). pose proof (s_sigma r0 v0 mu Hr Hv Hm) as Ks.
    destruct (s_norm r0 Hr) as (nr & Er & Dr & Vr).
    set (al := alpha_of (vector_norm (row r0 [])) (vector_norm (row v0 [])) (at_ mu [])) in *.
    set (chis := vmap_solve_kepler_uni (times ts) al (vector_norm (row r0 [])) (sigma_fn (row r0 []) (row v0 []) (at_ mu [])) (at_ mu [])).
    assert (Lc : List.length chis = n) by (unfold chis; rewrite vmap_solve_eq, map_length; reflexivity).
    assert (Ec : exists chi, vmap_solve_nd (atleast_1d (Some ts)) al (vector_norm (row r0 [])) (sigma_fn (row r0 []) (row v0 []) (at_ mu [])) (Some mu) = Some chi /\
      dims chi = [n] /\ forall k, k < n -> at_ chi [k] = nth k chis (n_Z 0)).
    { unfold vmap_solve_nd, atleast_1d, obind. destruct Ht as [Ht|[m Ht]]; unfold n, chis, times; rewrite Ht; cbn [dims]; rewrite ?Ht, Hm; cbn [at_].
      - eexists. split; [reflexivity|]. split; [reflexivity|]. reflexivity.
      - eexists. split; [reflexivity|]. rewrite map_length, seq_length. split; [reflexivity|]. reflexivity. }
    destruct Ec as (chi & Ec & Dc & Vc).
    destruct (coefs r0 v0 mu Hr Hv Hm n chis chi Dc Vc a Da Va) as (f & g & ft & gt & [F1 F2] & [G1 G2] & [H1 H2] & [K1 K2] & Q).
    destruct (comb_v r0 v0 Hr Hv n _ _ f g F1 F2 G1 G2) as (rr & Err & Drr & Vrr).
    destruct (comb_v r0 v0 Hr Hv n _ _ ft gt H1 H2 K1 K2) as (vv & Evv & Dvv & Vvv).
    exists rr, vv. split.
    - unfold kepler_nd, Num_arrays. cbv zeta. rewrite Ea.
      rewrite (item_one a al) by (try (now left); rewrite <- Va; now apply s_leaf). cbn [obind].
      assert (Ir : item (norm_all (Some r0)) = Some (vector_norm (row r0 []))).
      { rewrite Er. apply (item_one nr); [now left|]. rewrite <- (Vr [] ltac:(constructor)). now apply s_leaf. }
      rewrite Ir. cbn [obind]. rewrite Es in Ks.
      assert (Is : item (sigma_fn_nd (Some r0) (Some v0) (Some mu)) = Some (sigma_fn (row r0 []) (row v0 []) (at_ mu []))).
      { rewrite Es. exact (item_one s _ (or_intror Ds) Ks). }
      rewrite Is. cbn [obind]. rewrite Ec.
      unnd. rewrite Err. cbn [obind]. rewrite Evv. reflexivity.
    - split; [exact Drr|]. split; [exact Dvv|]. intros k Hk. unfold kepler. fold al. fold chis.
      rewrite (map_nth_error _ k chis (nth_error_nth' chis (n_Z 0) ltac:(rewrite Lc; exact Hk))).
      f_equal. rewrite Vrr, Vvv by exact Hk. specialize (Q [k]). cbn [hd] in Q. exact (eq_sym Q).
  Qed.
  Lemma u2_none (al : nd T) : ufunc2_nd None al = None.
  Proof using. unfold ufunc2_nd. unnd. rewrite !lift2_none_r. unfold lax_cond, obind. now destruct (nd_lt _ _). Qed.
  Lemma kepler_rejects (ts r0 v0 mu : arr T) o : kepler_nd (Some ts) (Some r0) (Some v0) (Some mu) = Some o ->
    dims mu = [] /\ (dims ts = [] \/ exists n, dims ts = [n]).
  Proof using.
    unfold kepler_nd, Num_arrays. cbv zeta. destruct (item _) as [x|]; [|easy]. cbn [obind]. destruct (item (norm_all (Some r0))) as [y|]; [|easy]. cbn [obind].
    destruct (item _) as [z|]; [|easy]. cbn [obind].
    destruct (vmap_solve_nd (atleast_1d (Some ts)) x y z (Some mu)) as [chi|] eqn:E.
    - intros _. unfold vmap_solve_nd, atleast_1d, obind in E. destruct (dims ts) as [|n [|k w]] eqn:Dt; [cbn [dims] in E| |]; rewrite ?Dt in E.
      + destruct (dims mu); [auto|discriminate].
      + destruct (dims mu); [|discriminate]. split; [auto|]. right. eauto.
      + discriminate.
    - unfold lagrange_F. unnd. rewrite u2_none. cbn [lift2 obind]. rewrite !lift2_none_r. discriminate.
  Qed.
  (** the size of sigma0 is the number of states *)
  Lemma prod_one (u : list nat) : fold_right Nat.mul 1 u = 1 -> forall n, In n u -> n = 1.
  Proof using. induction u as [|a u IH]; cbn; [easy|]. intros H n [<-|K]; [|apply IH; [|exact K]]; apply Nat.eq_mul_1 in H; apply H. Qed.
  Lemma bcast_one (s t u : list nat) : bcast s t = Some u -> (forall n, In n u -> n = 1) -> forall n, In n (s ++ t) -> n = 1.
  Proof using.
    revert t u. induction s as [|a s IH]; intros t u E H n; [cbn in *; injection E as <-; apply H|].
    destruct t as [|b t]; [cbn in E; injection E as <-; rewrite app_nil_r; apply H|].
    cbn [bcast] in E. destruct (bcast1 a b) as [c|] eqn:BC; [|discriminate]. destruct (bcast s t) as [w|] eqn:W; [|discriminate]. injection E as <-.
    assert (c1 : c = 1) by (apply H; now left). rewrite c1 in BC.
    assert (a = 1 /\ b = 1) as [-> ->].
    { revert BC. unfold bcast1. destruct (Nat.eqb_spec a b), (Nat.eqb_spec a 1), (Nat.eqb_spec b 1); intro BC; try discriminate BC; injection BC as BC; lia. }
    cbn. intros [<-|K]; [reflexivity|]. apply in_app_iff in K. destruct K as [K|[<-|K]]; [|reflexivity|].
    - apply (IH t w W); [|apply in_app_iff; now left]. intros k Hk. apply H. now right.
    - apply (IH t w W); [|apply in_app_iff; now right]. intros k Hk. apply H. now right.
  Qed.
  Lemma kepler_one_state (ts r0 v0 mu : arr T) (s t : list nat) o : vectors r0 s -> vectors v0 t ->
    kepler_nd (Some ts) (Some r0) (Some v0) (Some mu) = Some o -> forall n, In n (s ++ t) -> n = 1.
  Proof using.
    intros Hr Hv K. destruct (kepler_rejects ts r0 v0 mu o K) as [Hm _]. revert K.
    unfold kepler_nd, Num_arrays. cbv zeta. destruct (item _) as [x|]; [|easy]. cbn [obind]. destruct (item (norm_all (Some r0))) as [y|]; [|easy]. cbn [obind].
    destruct (item (sigma_fn_nd (Some r0) (Some v0) (Some mu))) as [z|] eqn:I; [|easy]. intros _. revert I.
    unfold sigma_fn_nd. unnd. unfold item, sum_last, lift2, lift1, obind. rewrite Hr, Hv. cbn [bcast bcast1 Nat.eqb].
    destruct (bcast s t) as [u|] eqn:B; [|easy]. cbn [dims]. rewrite Hm. cbn [bcast dims fold_right].
    destruct (Nat.eqb_spec (1 * fold_right Nat.mul 1 u) 1) as [E|E]; [|easy]. intros _. rewrite Nat.mul_1_l in E.
    exact (bcast_one s t u B (prod_one u E)).
  Qed.
End Kep.
