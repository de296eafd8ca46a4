(** * RevKep: reverse mode of the solvers and the propagator (proofs for C84, C85) *)
From Coq Require Import Reals Lra Lia ZArith List Bool String FunctionalExtensionality.
From Coquelicot Require Import Coquelicot.
Import ListNotations.
From Verif Require Import Num NumR NumD NumV Spec SpecAd SpecRev Gravity Reverse.
From Verif Require Import OrbIntegrals Uniformulas Lagrange KepEqu RotMat OrbElements StateTrans PropKepler Trace TraceLib.
From Verif Require Import RLib Ana TwoBody UFacts KepState AdOps AdFacts AdKep AdMore RevOps RevFacts RevPulls LoopFacts.
Local Open Scope R_scope.

(** ** gradients *)
Lemma pair_unit n i g : (i < n)%nat -> pairing n g (fun j => if Nat.eqb i j then 1 else 0) = g i.
Proof.
  intro H. transitivity (pairing n (fun j => if Nat.eqb i j then 1 else 0) g).
  - clear H. induction n as [| n IH]; simpl; [reflexivity | rewrite IH; ring].
  - rewrite pair_input by exact H. ring.
Qed.
Lemma gradient (n i : nat) x s r : (i < n)%nat -> pulls n (fun j => if Nat.eqb i j then 1 else 0) x s r -> is_derive x s (back r 1 i).
Proof.
  intros H P. pose proof (proj2 (pulls_carries _ _ _ _ _ P)) as D. cbn [tang the_dual] in D. now rewrite (pair_unit n i _ H) in D.
Qed.
Lemma inputs (n : nat) (w : nat -> R) (s : R) :
  (forall i x, (i < n)%nat -> is_derive x s (w i) -> pulls n w x s (input i (x s))) /\ (forall c, pulls n w (fun _ => c) s (constant c)).
Proof. split; [intros; now apply pulls_input | intro; apply pulls_constant]. Qed.
Lemma mir_dual n w r d : mir n w r d -> the_dual n w r = d.
Proof. intros [V P]. unfold the_dual. rewrite V, P, Rmult_1_l. now destruct d. Qed.
Lemma rev_zero_energy : forall chi : R, chi <> 0 -> let one := fun _ : nat => 1 in
  ~ pulls 1 one (fun a => ufunc0 chi a) 0 (@ufunc0 _ Num_V (constant chi) (input 0 0)) /\
  ~ pulls 1 one (fun a => ufunc1 chi a) 0 (@ufunc1 _ Num_V (constant chi) (input 0 0)) /\
  ~ pulls 1 one (fun a => ufunc2 chi a) 0 (@ufunc2 _ Num_V (constant chi) (input 0 0)) /\
  ~ pulls 1 one (fun a => ufunc3 chi a) 0 (@ufunc3 _ Num_V (constant chi) (input 0 0)).
Proof.
  intros chi H one. destruct (zero_energy chi H) as [Z0 [Z1 [Z2 Z3]]].
  assert (I : mir 1 one (input 0 0) (mkD 0 1)) by (split; [reflexivity |]; intro ct; unfold one; cbn; ring).
  assert (C : mir 1 one (constant chi) (konst chi)) by apply m_const.
  split; [intro P; apply Z0 | split; [intro P; apply Z1 | split; [intro P; apply Z2 | intro P; apply Z3]]];
    apply pulls_carries in P.
  - now rewrite (mir_dual _ _ _ _ (m_ufunc0 1 one _ _ _ _ C I)) in P.
  - now rewrite (mir_dual _ _ _ _ (m_ufunc1 1 one _ _ _ _ C I)) in P.
  - now rewrite (mir_dual _ _ _ _ (m_ufunc2 1 one _ _ _ _ C I)) in P.
  - now rewrite (mir_dual _ _ _ _ (m_ufunc3 1 one _ _ _ _ C I)) in P.
Qed.
(** [jax.grad] of the period in both arguments at [a = mu = 1] *)
Lemma period_grad : let g := back (@orb_period _ Num_V (input 0 1) (input 1 1)) 1 in g 0%nat = 3 * PI /\ g 1%nat = - PI.
Proof.
  unfold orb_period. cbn. replace (1 * (1 * 1) / 1) with 1 by field. rewrite sqrt_1. split; field.
Qed.
(** tests/test_kepler_equation.py:188: [jax.grad] of Kepler's equation in chi is [dchi] *)
Lemma keq_grad chi al r0 s0 t mu :
  back (@kepler_equ_uni _ Num_V (input 0 chi) (constant al) (constant r0) (constant s0) (constant t) (constant mu)) 1 0%nat = dchi chi al r0 s0.
Proof.
  assert (I : pulls 1 (fun j => if Nat.eqb 0 j then 1 else 0) (fun u => u) chi (input 0 chi)).
  { apply (pulls_input 1 _ 0 (fun u => u) chi); [lia | apply der_id]. }
  assert (P : pulls 1 (fun j => if Nat.eqb 0 j then 1 else 0) (fun u => kepler_equ_uni u al r0 s0 t mu) chi
    (@kepler_equ_uni _ Num_V (input 0 chi) (constant al) (constant r0) (constant s0) (constant t) (constant mu))).
  { eapply pulls_of; [apply (at_keq chi (fun u => u) _ al (pulls_carries _ _ _ _ _ I) r0 s0 (fun _ => t) (konst t) mu); apply a_const |].
    apply m_kepler_equ_uni; try apply m_const. eapply pulls_mir; exact I. }
  pose proof (gradient 1 0 _ _ _ ltac:(lia) P) as D.
  destruct (ufunc_dchi chi al) as [_ [D1 [D2 [D3 _]]]].
  assert (D' : is_derive (fun u : R => kepler_equ_uni u al r0 s0 t mu) chi (dchi chi al r0 s0)).
  { unfold kepler_equ_uni, dchi, equ_of_orb_uvi. cbn. eapply der_eq; [apply der_minus; [apply der_plus; [apply der_plus |] |]|].
    - apply der_scal. exact D1.
    - apply der_scal. exact D2.
    - exact D3.
    - apply der_const.
    - ring. }
  exact (eq_trans (eq_sym (is_derive_unique _ _ _ D)) (is_derive_unique _ _ _ D')).
Qed.

(** ** loops have no backward pass *)
Ltac lv := repeat match goal with H : live ?x = _ |- _ => rewrite !H; clear H end; try reflexivity.
Lemma live_u0 c a : live c = false -> live a = false -> live (@ufunc0 _ Num_V c a) = false.
Proof. intros A B. unfold ufunc0, where_. destruct n_gt; [| destruct n_lt]; cbn; lv. Qed.
Lemma live_u1 c a : live c = false -> live a = false -> live (@ufunc1 _ Num_V c a) = false.
Proof. intros A B. unfold ufunc1, where_. destruct n_gt; [| destruct n_lt]; cbn; lv. Qed.
Lemma live_u2 c a : live c = false -> live a = false -> live (@ufunc2 _ Num_V c a) = false.
Proof. intros A B. unfold ufunc2, where_. destruct n_gt; [| destruct n_lt]; cbn; lv. Qed.
Lemma live_u3 c a : live c = false -> live a = false -> live (@ufunc3 _ Num_V c a) = false.
Proof. intros A B. unfold ufunc3, where_. destruct n_gt; [| destruct n_lt]; cbn; lv. Qed.
Lemma live_step c a r s t m : live c = false -> live a = false -> live r = false -> live s = false -> live t = false -> live m = false ->
  live (@n_sub _ Num_V c (@n_div _ Num_V (@kepler_equ_uni _ Num_V c a r s t m) (@dchi _ Num_V c a r s))) = false.
Proof.
  intros Hc Ha Hr Hs Ht Hm. unfold kepler_equ_uni, dchi, equ_of_orb_uvi. cbn.
  rewrite (live_u0 c a Hc Ha), (live_u1 c a Hc Ha), (live_u2 c a Hc Ha), (live_u3 c a Hc Ha). lv.
Qed.
Lemma live_step_rs c a r s t m : (live r || live s)%bool = true ->
  live (@n_sub _ Num_V c (@n_div _ Num_V (@kepler_equ_uni _ Num_V c a r s t m) (@dchi _ Num_V c a r s))) = true.
Proof.
  intros H. unfold kepler_equ_uni. cbn. destruct (live r), (live s); try discriminate; cbn; rewrite ?orb_true_r; reflexivity.
Qed.

(** a carried value stays live, or stays not live *)
Lemma loop_live (P : node -> Prop) f c b : (forall k x y k' x' y', b (k, x, y) = (k', x', y') -> P x -> P x') ->
  forall k x y, P x -> match while_fuel f c b (k : Z, x, y : node) with Some (_, z, _) => P z | None => True end.
Proof.
  intro B. induction f as [| f IH]; intros k x y Hx; [exact I |]. cbn [while_fuel]. destruct (c (k, x, y)); [| exact Hx].
  destruct (b (k, x, y)) as [[k' x'] y'] eqn:E. apply IH. eapply B; eassumption.
Qed.
Section Loops.
  Variables (tol : R) (k : Z).
  Lemma live_elps M e : vjp_solve_elps M e tol k = None <-> (live M || live e)%bool = true.
  Proof using.
    unfold vjp_solve_elps, looped.
    assert (G : live (@elps_guess _ Num_V M e) = (live M || live e)%bool) by (unfold elps_guess; cbn; destruct (live M), (live e); reflexivity).
    destruct (live M || live e)%bool eqn:H.
    - split; [reflexivity | intros _]. replace (live (carried _)) with true; [reflexivity |]. symmetry. cbn in *. now rewrite G.
    - split; [| discriminate]. intro N. exfalso. apply orb_false_elim in H. destruct H as [HM He].
      assert (A : live (carried (@elps_body _ Num_V M e (@elps_init _ Num_V M e (constant tol)))) = false).
      { cbn. cbn in G. rewrite HM, He. reflexivity. }
      rewrite A in N. enough (L : live (@solve_kepler_elps _ Num_V M e (constant tol) k) = false) by (rewrite L in N; discriminate).
      unfold solve_kepler_elps, elps_run, elps_init.
      pose proof (loop_live (fun x => live x = false) (loop_fuel k) (@elps_cond _ Num_V (constant tol) k) (@elps_body _ Num_V M e)) as K.
      match goal with |- context [while_fuel _ _ _ (?a, ?x, ?y)] => specialize (fun B => K B a x y G) end.
      destruct while_fuel as [[[i z] y] |]; [| exact G]. apply K.
      intros i' x y' i'' x' y'' E Hx. injection E as _ <- _. cbn. now rewrite Hx, HM, He.
  Qed.
  Lemma live_hypb Nm e : vjp_solve_hypb Nm e tol k = None <-> (live Nm || live e)%bool = true.
  Proof using.
    unfold vjp_solve_hypb, looped.
    assert (G : live (@hypb_guess _ Num_V Nm e) = (live Nm || live e)%bool) by (unfold hypb_guess; cbn; destruct (live Nm), (live e); reflexivity).
    destruct (live Nm || live e)%bool eqn:H.
    - split; [reflexivity | intros _]. replace (live (carried _)) with true; [reflexivity |]. symmetry. cbn in *. now rewrite G.
    - split; [| discriminate]. intro N. exfalso. apply orb_false_elim in H. destruct H as [HM He].
      assert (A : live (carried (@hypb_body _ Num_V Nm e (@hypb_init _ Num_V Nm e (constant tol)))) = false).
      { cbn. rewrite HM, He. reflexivity. }
      rewrite A in N. enough (L : live (@solve_kepler_hypb _ Num_V Nm e (constant tol) k) = false) by (rewrite L in N; discriminate).
      unfold solve_kepler_hypb, hypb_run, hypb_init.
      pose proof (loop_live (fun x => live x = false) (loop_fuel k) (@hypb_cond _ Num_V Nm e (constant tol) k) (@hypb_body _ Num_V Nm e)) as K.
      match goal with |- context [while_fuel _ _ _ (?a, ?x, ?y)] => specialize (fun B => K B a x y G) end.
      destruct while_fuel as [[[i z] y] |]; [| exact G]. apply K.
      intros i' x y' i'' x' y'' E Hx. injection E as _ <- _. cbn. now rewrite Hx, HM, He.
  Qed.
  Lemma live_guess t al mu : live (@uni_guess _ Num_V t al mu) = (live t || live al || live mu)%bool.
  Proof using. unfold uni_guess. cbn. destruct (live t), (live al), (live mu); reflexivity. Qed.
  Lemma live_uni t al r0 s0 mu : vjp_solve_uni t al r0 s0 mu tol k = None <-> (live t || live al || live r0 || live s0 || live mu)%bool = true.
  Proof using.
    unfold vjp_solve_uni, looped. pose proof (live_guess t al mu) as G.
    set (x0 := @uni_guess _ Num_V t al mu) in *.
    assert (C : carried (@uni_body _ Num_V t al r0 s0 mu (@uni_init _ Num_V t al mu (constant tol)))
      = @n_sub _ Num_V x0 (@n_div _ Num_V (@kepler_equ_uni _ Num_V x0 al r0 s0 t mu) (@dchi _ Num_V x0 al r0 s0))) by reflexivity.
    rewrite C. clear C. split.
    - intro N. destruct (live t || live al || live r0 || live s0 || live mu)%bool eqn:H; [reflexivity |]. exfalso.
      apply orb_false_elim in H. destruct H as [H Hm]. apply orb_false_elim in H. destruct H as [H Hs].
      apply orb_false_elim in H. destruct H as [H Hr]. apply orb_false_elim in H. destruct H as [Ht Ha].
      rewrite Ht, Ha, Hm in G. cbn [orb] in G.
      rewrite live_step in N by assumption.
      enough (L : live (@solve_kepler_uni _ Num_V t al r0 s0 mu (constant tol) k) = false) by (rewrite L in N; discriminate).
      unfold solve_kepler_uni, uni_run, uni_init. fold x0.
      pose proof (loop_live (fun x => live x = false) (loop_fuel k) (@uni_cond _ Num_V t al r0 s0 mu (constant tol) k) (@uni_body _ Num_V t al r0 s0 mu)) as K.
      match goal with |- context [while_fuel _ _ _ (?a, ?x, ?y)] => specialize (fun B => K B a x y G) end.
      destruct while_fuel as [[[i z] y] |]; [| exact G]. apply K.
      intros i' x y' i'' x' y'' E Hx. injection E as _ <- _. now apply live_step.
    - intro H. match goal with |- (if (live ?x || _)%bool then _ else _) = _ => replace (live x) with true; [reflexivity |] end. symmetry.
      destruct (live r0 || live s0)%bool eqn:Q; [now apply live_step_rs |]. apply orb_false_elim in Q. destruct Q as [Q1 Q2].
      replace (live t || live al || live r0 || live s0 || live mu)%bool with (live t || live al || live mu)%bool in H
        by (rewrite Q1, Q2; destruct (live t), (live al), (live mu); reflexivity).
      rewrite H in G. clearbody x0. cbn -[kepler_equ_uni dchi]. now rewrite G.
  Qed.
End Loops.
Lemma existsb_map {A} (f : A -> node) l : existsb live (map f l) = existsb (fun a => live (f a)) l.
Proof. induction l as [| a l IH]; cbn; [reflexivity | now rewrite IH]. Qed.
Lemma live_kepler ts r0 v0 mu : vjp_kepler ts r0 v0 mu = None <-> existsb (fun t => live t || live mu)%bool ts = true.
Proof.
  unfold vjp_kepler. cbv zeta. set (al := item_V _). set (r := item_V _). set (sg := item_V _).
  assert (La : live al = false) by reflexivity. assert (Lr : live r = false) by reflexivity. assert (Ls : live sg = false) by reflexivity.
  clearbody al r sg. rewrite existsb_map.
  assert (G : forall t, live (@uni_guess _ Num_V t al mu) = (live t || live mu)%bool) by (intro t; rewrite live_guess, La, orb_false_r; reflexivity).
  destruct (existsb (fun t => live t || live mu)%bool ts) eqn:H.
  - split; [reflexivity | intros _].
    match goal with |- (if (existsb ?f ts || _)%bool then _ else _) = _ => replace (existsb f ts) with true; [reflexivity |] end.
    symmetry. apply existsb_exists in H. destruct H as [t [It Lt]]. apply existsb_exists. exists t. split; [exact It |].
    unfold lane_init, lane_body, lane_chi, uni_init, uni_body. cbn [fst snd]. cbn -[kepler_equ_uni dchi uni_guess]. now rewrite G, Lt.
  - split; [| discriminate]. intro N. exfalso.
    assert (A : forall t, In t ts -> live t = false /\ live mu = false).
    { intros t It. destruct (live t || live mu)%bool eqn:E; [| now apply orb_false_elim in E].
      rewrite (proj2 (existsb_exists _ ts) (ex_intro _ t (conj It E))) in H. discriminate. }
    assert (F : forall (B : Type) (f : B -> bool) l, (forall x, In x l -> f x = false) -> existsb f l = false).
    { intros B f l. induction l as [| x l IH]; intro Q; cbn; [reflexivity |]. rewrite (Q x (or_introl eq_refl)). apply IH. intros y Iy. apply Q. now right. }
    rewrite (F _ _ ts) in N; [| intros t It; destruct (A t It) as [Lt Lm]; apply live_step; try assumption; rewrite G, Lt, Lm; reflexivity].
    cbn [orb] in N.
    enough (L : existsb live (@vmap_solve_kepler_uni _ Num_V ts al r sg mu) = false) by (rewrite L in N; discriminate).
    unfold vmap_solve_kepler_uni.
    assert (V : forall f ls, (forall l, In l ls -> live (fst l) = false /\ live mu = false /\ live (lane_chi l) = false) ->
      match vwhile_fuel f (@lane_cond _ Num_V al r sg mu) (@lane_body _ Num_V al r sg mu) ls with
      | Some ls' => forall l, In l ls' -> live (lane_chi l) = false | None => True end).
    { induction f as [| f IH]; intros ls Q; [exact I |]. cbn [vwhile_fuel].
      destruct (existsb (@lane_cond _ Num_V al r sg mu) ls); [| intros l Il; apply Q; exact Il].
      apply IH. intros l Il. unfold vstep in Il. apply in_map_iff in Il. destruct Il as [l' [<- Il']].
      destruct (Q l' Il') as [Q1 [Q2 Q3]]. destruct lane_cond; [| auto].
      destruct l' as [t [[i x] y]]. cbn in Q1, Q3. split; [exact Q1 | split; [exact Q2 |]]. apply live_step; assumption. }
    specialize (V (loop_fuel uni_max_iter) (map (@lane_init _ Num_V al mu) ts)).
    destruct vwhile_fuel as [ls |].
    + rewrite existsb_map. apply F. apply V. intros l Il. apply in_map_iff in Il. destruct Il as [t [<- It]].
      destruct (A t It) as [Lt Lm]. split; [exact Lt | split; [exact Lm |]]. unfold lane_init, lane_chi, uni_init. cbn [fst snd]. rewrite G, Lt, Lm. reflexivity.
    + rewrite existsb_map. apply F. intros t It. destruct (A t It) as [Lt Lm]. rewrite G, Lt, Lm. reflexivity.
Qed.

(** ** the state *)
Lemma constant_times (ts : list R) r0 v0 (mu : R) :
  let r := @vector_norm _ Num_V r0 in let al := @alpha_of _ Num_V r (@vector_norm _ Num_V v0) (constant mu) in
  let sg := @sigma_fn _ Num_V r0 v0 (constant mu) in
  vjp_kepler (map constant ts) r0 v0 (constant mu)
  = Some (map (fun chi => @state_at_chi _ Num_V chi al sg r r0 v0 (constant mu))
      (@vmap_solve_kepler_uni _ Num_V (map constant ts) (item_V al) (item_V r) (item_V sg) (constant mu))).
Proof.
  intros r al sg. pose proof (proj1 (live_kepler (map constant ts) r0 v0 (constant mu))) as H.
  assert (Z : forall l : list R, existsb (fun t => live t || live (constant mu))%bool (map constant l) = false) by (induction l; cbn; auto).
  rewrite Z in H. revert H. unfold vjp_kepler. cbv zeta. fold r al sg. destruct (_ || _)%bool; [intro H; now specialize (H eq_refl) | reflexivity].
Qed.
Lemma node_eq x f y g b : x = y -> (forall c i, f c i = g c i) -> mkN x f b = mkN y g b.
Proof. intros -> H. f_equal. apply functional_extensionality. intro c. apply functional_extensionality. apply H. Qed.
Lemma hom_constant : @hom R node Num_R Num_V constant.
Proof. split; intros; unfold constant; cbn; try reflexivity; try (apply node_eq; [reflexivity | intros; cbn; ring]). Qed.

Section Rows.
  Context (n : nat) (w : nat -> R) (mu s : R) (r0 v0 : R -> vec) (rr rv : V3 node).
  Hypothesis Hmu : 0 < mu.
  Hypothesis Hh : cross (r0 s) (v0 s) <> vzero.
  Hypothesis He : energy mu (r0 s) (v0 s) <> 0.
  Hypothesis Hr : vpulls n w r0 s rr.
  Hypothesis Hv : vpulls n w v0 s rv.
  Let dr := the_dualv n w rr.
  Let dv := the_dualv n w rv.
  Let Cr : vcarries r0 s dr. Proof using Hr. now apply vpulls_carries. Qed.
  Let Cv : vcarries v0 s dv. Proof using Hv. now apply vpulls_carries. Qed.
  Let Mr : vmir n w rr dr. Proof using Hr. now apply vpulls_mir with (x := r0) (s := s). Qed.
  Let Mv : vmir n w rv dv. Proof using Hv. now apply vpulls_mir with (x := v0) (s := s). Qed.
  Let nV := @vector_norm _ Num_V rr.
  Let aV := @alpha_of _ Num_V nV (@vector_norm _ Num_V rv) (constant mu).
  Let sV := @sigma_fn _ Num_V rr rv (constant mu).
  Let nD := @vector_norm _ Num_D dr.
  Let aD := @alpha_of _ Num_D nD (@vector_norm _ Num_D dv) (konst mu).
  Let sD := @sigma_fn _ Num_D dr dv (konst mu).
  Let Mn : mir n w nV nD. Proof using Mr. now apply m_norm. Qed.
  Let Ms : mir n w sV sD. Proof using Mr Mv. apply m_sigma_fn; [assumption | assumption | apply m_const]. Qed.
  Let Ma : mir n w aV aD.
  Proof using Mn Mv.
    unfold aV, aD, alpha_of. pose proof (m_norm n w _ _ Mv) as Q. pose proof (m_const n w mu) as C.
    pose proof (m_semimajor_axis n w _ _ _ _ _ _ Mn Q C). apply m_div; [apply m_dec || apply m_Z | assumption].
  Qed.
  Lemma vjp_rows ts :
    exists outs, vjp_kepler (map constant ts) rr rv (constant mu) = Some outs /\
    Forall2 (fun x o => exists (chi : R) (tau : R -> R) (r v : R -> vec),
      (r s, v s) = x /\ (exists tau', is_derive tau s tau') /\
      locally s (fun u => flows_to mu (tau u) (r0 u, v0 u) (r u, v u)) /\
      locally s (fun u => (2 / vnorm (r0 u) - vnorm (v0 u) ^ 2 / mu) * sqrt mu * tau u + (dot (r u) (v u) - dot (r0 u) (v0 u)) / sqrt mu = chi) /\
      vpulls n w r s (fst o) /\ vpulls n w v s (snd o)) (kepler ts (r0 s) (v0 s) mu) outs.
  Proof using Hmu Hh He Hr Hv.
    rewrite constant_times. cbv zeta. fold nV aV sV. unfold item_V.
    rewrite (proj1 Ma), (proj1 Ms), (proj1 Mn).
    unfold aD, sD, nD. rewrite (carries_val _ _ _ (c_al mu s r0 v0 dr dv Hmu Hh He Cr Cv)), (carries_val _ _ _ (c_sg mu s r0 v0 dr dv Hmu Cr Cv)), (carries_val _ _ _ (c_n s r0 v0 dr Hh Cr)).
    rewrite (@hom_solve _ _ Num_R Num_V constant hom_constant).
    rewrite map_map. eexists. split; [reflexivity |]. unfold kepler. cbv zeta. apply Forall2_maps. intros chi _.
    exists chi, (fun u => timeS (r0 u) (v0 u) mu chi / sqrt mu), (fun u => posS (r0 u) (v0 u) mu chi), (fun u => velS (r0 u) (v0 u) mu chi).
    destruct (fixed_row mu s r0 v0 dr dv Hmu Hh Cr Cv chi) as (A & B & C). destruct (row_carries mu s r0 v0 dr dv Hmu Hh He Cr Cv chi) as (P & V).
    destruct (m_state_at_chi n w _ _ _ _ _ _ _ _ _ _ _ _ _ _ (m_const n w chi) Ma Ms Mn Mr Mv (m_const n w mu)) as [MP MV].
    split; [|split; [exact A|split; [exact B|split; [exact C|split]]]].
    - symmetry. exact (state_at_chi_S chi (r0 s) (v0 s) mu).
    - exact (vpulls_of _ _ _ _ _ _ P MP).
    - exact (vpulls_of _ _ _ _ _ _ V MV).
  Qed.
End Rows.

(** One revolution of the unit circle, differentiated in the speed. *)
Lemma turn_vjp : exists o, vjp_kepler [constant (2 * PI)] (mk3 (constant 1) (constant 0) (constant 0))
    (mk3 (constant 0) (input 0 1) (constant 0)) (constant 1) = Some [o] /\
  vnval (fst o) = mk3 1 0 0 /\ back (c0 (fst o)) 1 0%nat = 0 /\ back (c1 (fst o)) 1 0%nat = - (2 * PI) /\ back (c2 (fst o)) 1 0%nat = 0.
Proof.
  set (w := fun _ : nat => 1). pose proof (m_const 1 w) as K.
  assert (I : mir 1 w (input 0 1) (mkD 1 1)) by (split; [reflexivity |]; intro ct; unfold w; cbn; ring).
  set (rr := mk3 (constant 1) (constant 0) (constant 0)). set (rv := mk3 (constant 0) (input 0 1) (constant 0)).
  assert (Mr : vmir 1 w rr (mk3 (konst 1) (konst 0) (konst 0))) by (split; [| split]; cbn; apply K).
  assert (Mv : vmir 1 w rv (mk3 (konst 0) (mkD 1 1) (konst 0))) by (split; [| split]; cbn; [apply K | exact I | apply K]).
  pose proof (m_norm 1 w _ _ Mr) as Mn. rewrite turn_n in Mn. pose proof (m_norm 1 w _ _ Mv) as Mw. rewrite turn_v in Mw.
  pose proof (m_sigma_fn 1 w _ _ _ _ _ _ Mr Mv (K 1)) as Ms. rewrite turn_s in Ms.
  assert (Ma : mir 1 w (@alpha_of _ Num_V (@vector_norm _ Num_V rr) (@vector_norm _ Num_V rv) (constant 1)) (mkD 1 (-2))).
  { rewrite <- turn_a. unfold alpha_of. pose proof (m_semimajor_axis 1 w _ _ _ _ _ _ Mn Mw (K 1)). apply m_div; [apply m_dec || apply m_Z | assumption]. }
  change [constant (2 * PI)] with (map constant [2 * PI]). rewrite constant_times. cbv zeta. unfold item_V. rewrite (proj1 Ma), (proj1 Ms), (proj1 Mn). cbn [val].
  rewrite (@hom_solve _ _ Num_R Num_V constant hom_constant), turn_solve. cbn [map].
  eexists. split; [reflexivity |].
  destruct (m_state_at_chi 1 w _ _ _ _ _ _ _ _ _ _ _ _ _ _ (K (2 * PI)) Ma Ms Mn Mr Mv (K 1)) as [MP _]. rewrite turn_state in MP.
  destruct MP as [[V0 B0] [[V1 B1] [V2 B2]]]. cbn [fst c0 c1 c2 val tang] in V0, V1, V2, B0, B1, B2.
  specialize (B0 1). specialize (B1 1). specialize (B2 1). unfold w in B0, B1, B2. cbn [pairing] in B0, B1, B2.
  split; [unfold vnval, vmap3; rewrite V0, V1, V2; reflexivity |]. split; [lra | split; lra].
Qed.
Lemma turn_wrong :
  (exists o, vjp_kepler [constant (2 * PI)] (mk3 (constant 1) (constant 0) (constant 0))
       (mk3 (constant 0) (input 0 1) (constant 0)) (constant 1) = Some [o] /\
     vnval (fst o) = mk3 1 0 0 /\
     back (c0 (fst o)) 1 0%nat = 0 /\ back (c1 (fst o)) 1 0%nat = - (2 * PI) /\ back (c2 (fst o)) 1 0%nat = 0) /\
  (forall r v : R -> vec, locally 0 (fun u => flows_to 1 (2 * PI) (mk3 1 0 0, mk3 0 (1 + u) 0) (r u, v u)) ->
     vderive r 0 (mk3 0 (- (6 * PI)) 0)).
Proof. exact (conj turn_vjp turn_true). Qed.
