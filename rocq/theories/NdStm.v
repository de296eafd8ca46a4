(** * NdStm: shapes in [dxdx0] and the Newton loops (proofs for C55) *)
From Coq Require Import List Arith Lia ZArith Bool.
Import ListNotations.
From Verif Require Import Num Nd NdModel SpecNd NdLib NdElem NdVec NdRv NdCoe NdKep OrbIntegrals Uniformulas Lagrange KepEqu StateTrans.

Section Stm.
  Context {T : Type} {N : Num T}.
  Definition vis (x : nd T) (u : V3 T) : Prop := is [3] x (fun i => comp (hd 0 i) u).
  Definition mis (x : nd T) (A : M3 T) : Prop := is [3; 3] x (fun i => entry (hd 0 (tl i)) (hd 0 i) A).
  Lemma is_to S (x : nd T) f : is S x f -> rel S x f /\ cov S x.
  Proof using.
    intros (o & -> & D & V). split.
    - exists o. rewrite D. split; [reflexivity|]. split; [apply fits_refl|]. intros i Hi. unfold read. rewrite D, pick_id; auto.
    - intros q [= <-]. rewrite D. apply fits_refl.
  Qed.
  Lemma inb3 i : inb [3] i -> i = [0] \/ i = [1] \/ i = [2].
  Proof using. intros H. inversion H as [|? k ? j Hk Hj]; subst. inversion Hj; subst. destruct k as [|[|[|]]]; auto; lia. Qed.
  Lemma inb33 i : inb [3; 3] i -> exists k l, k < 3 /\ l < 3 /\ i = [l; k].
  Proof using. intros H. inversion H as [|? l ? j Hl Hj]; subst. inversion Hj as [|? k ? j' Hk Hj']; subst. inversion Hj'; subst. exists k, l. auto. Qed.
  Lemma inb_1 n k : k < n -> inb [n] [k]. Proof using. intros H. constructor; [exact H|constructor]. Qed.
  Lemma inb_2 n m k l : k < n -> l < m -> inb [n; m] [k; l]. Proof using. intros H H'. constructor; [exact H|now apply inb_1]. Qed.
  Lemma is_eq S (x : nd T) f g : is S x f -> (forall i, inb S i -> f i = g i) -> is S x g.
  Proof using. apply is_ext. Qed.
  Lemma v_vv (op : T -> T -> T) x y u w : vis x u -> vis y w -> vis (lift2 op x y) (vzip3 op u w).
  Proof using.
    intros H H'. apply is_to in H, H'. destruct H as [R C]. destruct H' as [R' C'].
    apply (is_eq [3] _ (fun i => op (comp (hd 0 i) u) (comp (hd 0 i) w))).
    - apply rel_is; [now apply (rel_lift2 [3])|now apply cov_lift2l].
    - intros i Hi. destruct (inb3 i Hi) as [-> | [-> | ->]]; reflexivity.
  Qed.
  Lemma v_vs (op : T -> T -> T) x y u c : vis x u -> srel y c -> vis (lift2 op x y) (vmap3 (fun a => op a c) u).
  Proof using.
    intros H K. apply is_to in H. destruct H as [R C]. apply (is_eq [3] _ (fun i => op (comp (hd 0 i) u) c)).
    - apply rel_is; [apply (rel_lift2 [3] op _ _ _ (fun _ => c)); [exact R|now apply s_mono]|now apply cov_lift2l].
    - intros i Hi. destruct (inb3 i Hi) as [-> | [-> | ->]]; reflexivity.
  Qed.
  Ltac mcases H := let k := fresh "k" in let l := fresh "l" in let Hk := fresh in let Hl := fresh in
    destruct (inb33 _ H) as (k & l & Hk & Hl & ->); cbn [hd tl];
    destruct k as [|[|[|]]]; [| | |lia]; (destruct l as [|[|[|]]]; [| | |lia]); reflexivity.
  Lemma m_mm (op : T -> T -> T) x y A B : mis x A -> mis y B -> mis (lift2 op x y) (vzip3 (vzip3 op) A B).
  Proof using.
    intros H H'. apply is_to in H, H'. destruct H as [R C]. destruct H' as [R' C'].
    apply (is_eq [3; 3] _ (fun i => op (entry (hd 0 (tl i)) (hd 0 i) A) (entry (hd 0 (tl i)) (hd 0 i) B))).
    - apply rel_is; [now apply (rel_lift2 [3; 3])|now apply cov_lift2l].
    - intros i Hi. mcases Hi.
  Qed.
  Lemma m_sm (op : T -> T -> T) x y A c : srel x c -> mis y A -> mis (lift2 op x y) (vmap3 (vmap3 (op c)) A).
  Proof using.
    intros K H. apply is_to in H. destruct H as [R C]. apply (is_eq [3; 3] _ (fun i => op c (entry (hd 0 (tl i)) (hd 0 i) A))).
    - apply rel_is; [apply (rel_lift2 [3; 3] op _ _ (fun _ => c)); [now apply s_mono|exact R]|now apply cov_lift2r].
    - intros i Hi. mcases Hi.
  Qed.
  Lemma m_ms (op : T -> T -> T) x y A c : mis x A -> srel y c -> mis (lift2 op x y) (vmap3 (vmap3 (fun a => op a c)) A).
  Proof using.
    intros H K. apply is_to in H. destruct H as [R C]. apply (is_eq [3; 3] _ (fun i => op (entry (hd 0 (tl i)) (hd 0 i) A) c)).
    - apply rel_is; [apply (rel_lift2 [3; 3] op _ _ _ (fun _ => c)); [exact R|now apply s_mono]|now apply cov_lift2l].
    - intros i Hi. mcases Hi.
  Qed.
  Lemma m_neg (op : T -> T) x A : mis x A -> mis (lift1 op x) (vmap3 (vmap3 op) A).
  Proof using.
    intros H. apply (is_eq [3; 3] _ (fun i => op (entry (hd 0 (tl i)) (hd 0 i) A))); [now apply is_neg|]. intros i Hi. mcases Hi.
  Qed.
  Lemma m_outer x y u w : vis x u -> vis y w -> mis (outer_nd x y) (outer u w).
  Proof using.
    intros (a & -> & D & V) (b & -> & D' & V'). unfold outer_nd, obind. rewrite D, D'. eexists. split; [reflexivity|]. split; [reflexivity|].
    intros i Hi. destruct (inb33 _ Hi) as (k & l & Hk & Hl & ->). cbn [at_ hd tl]. rewrite V, V' by (apply inb_1; assumption). cbn [hd].
    destruct k as [|[|[|]]]; [| | |lia]; (destruct l as [|[|[|]]]; [| | |lia]); reflexivity.
  Qed.
  Lemma m_eye : mis eye_nd eye3.
  Proof using. eexists. split; [reflexivity|]. split; [reflexivity|]. intros i Hi. mcases Hi. Qed.
  Lemma m_mat x y A B : mis x A -> mis y B -> mis (matmul x y) (mmul A B).
  Proof using.
    intros (a & -> & D & V) (b & -> & D' & V'). unfold matmul, obind. rewrite D, D'. cbn [Nat.eqb bcast]. eexists. split; [reflexivity|]. split; [reflexivity|].
    intros i Hi. destruct (inb33 _ Hi) as (k & l & Hk & Hl & ->). cbn [at_ hd tl pick sum_n sum_from].
    rewrite !V, !V' by (apply inb_2; (assumption || lia)). cbn [hd tl].
    destruct k as [|[|[|]]]; [| | |lia]; (destruct l as [|[|[|]]]; [| | |lia]); reflexivity.
  Qed.
  Lemma v_leaf3 (a : arr T) : vectors a [] -> vis (Some a) (row a []).
  Proof using.
    intros H. exists a. split; [reflexivity|]. split; [exact H|]. intros i Hi. unfold row, read. rewrite H.
    destruct (inb3 i Hi) as [-> | [-> | ->]]; reflexivity.
  Qed.
  Lemma norm_s x u : vis x u -> srel (norm_all x) (vector_norm u).
  Proof using.
    intros (a & -> & D & V). unfold norm_all, obind. cbv zeta. rewrite D. eexists. split; [reflexivity|]. split; [exact I|].
    intros i _. cbn [sum_n sum_from cells flat_map map seq app nth length]. rewrite !V by (apply inb_1; lia). reflexivity.
  Qed.
  Lemma s_op2 (op : T -> T -> T) x y c d : srel x c -> srel y d -> srel (lift2 op x y) (op c d).
  Proof using. intros H H'. exact (rel_lift2 [1] op _ _ _ _ H H'). Qed.
  Lemma s_op1 (op : T -> T) x c : srel x c -> srel (lift1 op x) (op c).
  Proof using. intros H. exact (rel_lift1 [1] op _ _ H). Qed.
  Lemma s_const (c : T) : srel (scalar c) c.
  Proof using. exact (rel_scalar [1] c). Qed.
  Lemma s_pow x (c : T) n : srel x c -> srel (@npow _ Num_nd x n) (npow c n).
  Proof using. intros H. exact (rel_pow [1] _ _ n H). Qed.

  Ltac tree := repeat lazymatch goal with
    | |- srel (scalar _) _ => apply s_const
    | |- srel (lift1 _ _) _ => apply s_op1
    | |- srel (lift2 _ _ _) _ => apply s_op2
    | |- srel (npow _ _) _ => apply s_pow
    | |- srel (norm_all _) _ => apply norm_s; assumption
    | |- srel _ _ => eassumption
    | |- vis (Some _) _ => assumption
    | |- vis (lift2 n_sub _ _) _ => apply (v_vv n_sub)
    | |- vis (lift2 n_div _ _) _ => apply (v_vs n_div)
    | |- vis _ _ => assumption
    | |- mis (lift2 n_add _ _) _ => apply (m_mm n_add)
    | |- mis (lift2 n_sub _ _) _ => apply (m_mm n_sub)
    | |- mis (lift2 n_div _ _) _ => apply (m_ms n_div)
    | |- mis (lift1 n_neg _) _ => apply (m_neg n_neg)
    | |- mis (outer_nd _ _) _ => apply m_outer
    | |- mis (matmul _ _) _ => apply m_mat
    | |- mis eye_nd _ => apply m_eye
    end.
  Variables (r v r0 v0 : nd T) (R V R0 V0 : V3 T).
  Hypotheses (Hr : vis r R) (Hv : vis v V) (Hr0 : vis r0 R0) (Hv0 : vis v0 V0).
  Variables (F G Ft Gt C mu : nd T) (f g ft gt c m : T).
  Hypotheses (HF : srel F f) (HG : srel G g) (HFt : srel Ft ft) (HGt : srel Gt gt) (HC : srel C c) (Hm : srel mu m).
  Lemma prpr0_m : mis (prpr0_nd r v r0 v0 F C mu) (prpr0 R V R0 V0 f c m).
  Proof using Hr Hv Hr0 Hv0 HF HC Hm.
    unfold prpr0_nd, prpr0, madd, mscale, vadd, vsub, vdivs, vscale. cbv zeta. unnd.
    apply (m_mm n_add); [apply (m_mm n_add); [apply (m_mm n_add)|]|]; apply (m_sm n_mul); tree.
  Qed.
  Lemma prpv0_m : mis (prpv0_nd r v r0 v0 F G C mu) (prpv0 R V R0 V0 f g c m).
  Proof using Hr Hv Hr0 Hv0 HF HG HC Hm.
    unfold prpv0_nd, prpv0, madd, msub, mscale, vadd, vsub, vdivs, vscale. cbv zeta. unnd.
    apply (m_mm n_add); [apply (m_mm n_add)|]; apply (m_sm n_mul); tree.
  Qed.
  Lemma pvpr0_m : mis (pvpr0_nd r v r0 v0 Ft C mu) (pvpr0 R V R0 V0 ft c m).
  Proof using Hr Hv Hr0 Hv0 HFt HC Hm.
    unfold pvpr0_nd, pvpr0, madd, msub, mscale, mneg, mdivs, vadd, vsub, vdivs, vscale, vneg. cbv zeta. unnd.
    apply (m_mm n_sub); [apply (m_mm n_add); [tree|]|]; (apply (m_sm n_mul); tree).
  Qed.
  Lemma pvpv0_m : mis (pvpv0_nd r v r0 v0 F Gt C mu) (pvpv0 R V R0 V0 f gt c m).
  Proof using Hr Hv Hr0 Hv0 HF HGt HC Hm.
    unfold pvpv0_nd, pvpv0, madd, msub, mscale, mneg, mdivs, vadd, vsub, vdivs, vscale, vneg. cbv zeta. unnd.
    apply (m_mm n_add); [apply (m_mm n_sub); [apply (m_mm n_add)|]|].
    - apply (m_sm n_mul); tree.
    - apply (m_ms n_div); [apply (m_ms n_mul); [apply (m_sm n_mul); tree|tree]|tree].
    - apply (m_sm n_mul); tree.
    - apply (m_sm n_mul); tree.
  Qed.
End Stm.

Section Block.
  Context {T : Type} {N : Num T}.
  (** The 6x6 array with the four blocks of [J]. *)
  Definition blocks (D : arr T) (J : M6 (T := T)) : Prop := dims D = [6; 6] /\ forall k l, k < 3 -> l < 3 ->
    at_ D [l; k] = entry k l (b_rr J) /\ at_ D [3 + l; k] = entry k l (b_rv J) /\
    at_ D [l; 3 + k] = entry k l (b_vr J) /\ at_ D [3 + l; 3 + k] = entry k l (b_vv J).
  Lemma block_ok x y z w A B C D : mis x A -> mis y B -> mis z C -> mis w D -> exists o, block_nd x y z w = Some o /\ blocks o (mkM6 A B C D).
  Proof using.
    intros (a & -> & Da & Va) (b & -> & Db & Vb) (c & -> & Dc & Vc) (d & -> & Dd & Vd). unfold block_nd, obind.
    rewrite Da, Db, Dc, Dd, same_dims_refl. cbn [andb]. eexists. split; [reflexivity|]. split; [reflexivity|]. intros k l Hk Hl. cbn [at_ hd tl b_rr b_rv b_vr b_vv].
    assert (In : inb [3; 3] [l; k]) by (apply inb_2; assumption).
    pose proof (Va _ In) as Ea. pose proof (Vb _ In) as Eb. pose proof (Vc _ In) as Ec. pose proof (Vd _ In) as Ed.
    cbn [hd tl] in Ea, Eb, Ec, Ed. rewrite <- Ea, <- Eb, <- Ec, <- Ed.
    destruct k as [|[|[|]]]; [| | |lia]; (destruct l as [|[|[|]]]; [| | |lia]); auto.
  Qed.
  Variables (r v r0 v0 dt mu : arr T).
  Hypotheses (Hr : vectors r []) (Hv : vectors v []) (Hr0 : vectors r0 []) (Hv0 : vectors v0 []) (Hd : dims dt = []) (Hm : dims mu = []).
  Lemma dxdx0_block : exists D, dxdx0_nd (Some r) (Some v) (Some r0) (Some v0) (Some dt) (Some mu) = Some D /\
    blocks D (dxdx0 (row r []) (row v []) (row r0 []) (row v0 []) (at_ dt []) (at_ mu [])).
  Proof using Hr Hv Hr0 Hv0 Hd Hm.
    destruct (alpha_is r0 v0 mu Hr0 Hv0 Hm) as (a & Ea & Da & Va).
    unfold dxdx0_nd, dxdx0, Num_arrays. cbv zeta. rewrite Ea.
    set (al := alpha_of (vector_norm (row r0 [])) (vector_norm (row v0 [])) (at_ mu [])) in *.
    pose proof (s_sigma r v mu Hr Hv Hm) as Sg. pose proof (s_sigma r0 v0 mu Hr0 Hv0 Hm) as Sg0.
    pose proof (s_leaf mu Hm) as Km. pose proof (s_leaf dt Hd) as Kd. pose proof (s_leaf a Da) as Ka. rewrite Va in Ka.
    pose proof (v_leaf3 r Hr) as Vr. pose proof (v_leaf3 v Hv) as Vv. pose proof (v_leaf3 r0 Hr0) as Vr0. pose proof (v_leaf3 v0 Hv0) as Vv0.
    pose proof (norm_s _ _ Vr) as Nr. pose proof (norm_s _ _ Vr0) as Nr0.
    set (chi := @generalized_anomaly _ Num_nd (Some a) (sigma_fn_nd (Some r) (Some v) (Some mu)) (sigma_fn_nd (Some r0) (Some v0) (Some mu)) (Some dt) (Some mu)) in *.
    set (ch := generalized_anomaly al (sigma_fn (row r []) (row v []) (at_ mu [])) (sigma_fn (row r0 []) (row v0 []) (at_ mu [])) (at_ dt []) (at_ mu [])) in *.
    assert (Kc : srel chi ch).
    { unfold chi, ch, generalized_anomaly. unnd.
      repeat lazymatch goal with |- srel (lift2 _ _ _) _ => apply s_op2 | |- srel (lift1 _ _) _ => apply s_op1 end; assumption. }
    assert (Ku : forall U u, uspec U u -> srel (U chi (Some a)) (u ch al)).
    { intros U u Hu. pose proof (urel U u [1] chi a (fun _ => ch) Hu Da Kc) as K. rewrite Va in K. exact K. }
    pose proof (Ku _ _ u1_nd) as K1. pose proof (Ku _ _ u2_nd) as K2. pose proof (Ku _ _ u4_nd) as K4. pose proof (Ku _ _ u5_nd) as K5.
    assert (KC : srel (@C_func _ Num_nd chi (ufunc2_nd chi (Some a)) (ufunc4_nd chi (Some a)) (ufunc5_nd chi (Some a)) (Some dt) (Some mu))
      (C_func ch (ufunc2 ch al) (ufunc4 ch al) (ufunc5 ch al) (at_ dt []) (at_ mu []))).
    { unfold C_func. unnd. repeat lazymatch goal with |- srel (lift2 _ _ _) _ => apply s_op2 | |- srel (lift1 _ _) _ => apply s_op1 | |- srel (scalar _) _ => apply s_const
        | |- srel (npow _ _) _ => apply s_pow end; assumption. }
    apply block_ok; [apply prpr0_m|apply prpv0_m|apply pvpr0_m|apply pvpv0_m]; try assumption;
      unfold lagrange_F, lagrange_G, lagrange_Ft, lagrange_Gt; unnd;
      repeat lazymatch goal with |- srel (lift2 _ _ _) _ => apply s_op2 | |- srel (lift1 _ _) _ => apply s_op1 | |- srel (scalar _) _ => apply s_const
        | |- srel (npow _ _) _ => apply s_pow end; assumption.
  Qed.
End Block.

Section Loops.
  Context {T : Type} {N : Num T}.
  Lemma accepts_out (x0 : nd T) test prev step s : loop_accepts x0 test prev step = true -> cov s (test x0 prev) -> s = [].
  Proof using.
    unfold loop_accepts. destruct x0 as [a|]; [|easy]. destruct prev as [b|]; [|easy]. destruct (test (Some a) (Some b)) as [c|]; [|easy].
    destruct (step (Some a)) as [d|]; [|easy]. intros H C. specialize (C c eq_refl). apply andb_prop in H. destruct H as [H _]. apply andb_prop in H. destruct H as [H _].
    apply same_dims_eq in H. rewrite H in C. now destruct s.
  Qed.
  Lemma rel0 {A} (x : nd A) f : rel [] x f -> exists o, x = Some o /\ dims o = [].
  Proof using. intros (o & -> & F & _). exists o. split; [reflexivity|]. now destruct (dims o). Qed.
  Lemma accepts_in (x0 : nd T) test prev step f g h k : rel [] x0 f -> rel [] prev g -> rel [] (test x0 prev) h -> rel [] (step x0) k ->
    loop_accepts x0 test prev step = true.
  Proof using.
    intros H1 H2 H3 H4. apply rel0 in H1, H2, H3, H4. destruct H1 as (a & -> & Da). destruct H2 as (b & -> & Db). destruct H3 as (c & Ec & Dc). destruct H4 as (d & Ed & Dd).
    unfold loop_accepts. rewrite Ec, Ed, Da, Db, Dc, Dd. reflexivity.
  Qed.
  Lemma leaf0 (a : arr T) : dims a = [] -> rel [] (Some a) (read a).
  Proof using. intros H. apply rel_leaf. now rewrite H. Qed.
  Variables M e tol dt al r0 s0 mu : arr T.
  Lemma elps_iff : elps_accepts (Some M) (Some e) (Some tol) = true <-> dims M = [] /\ dims e = [] /\ dims tol = [].
  Proof using.
    unfold elps_accepts, elps_guess, nd_lt, dE. unnd. split.
    - intros H. split; [|split]; apply (accepts_out _ _ _ _ _ H); covs.
    - intros (H1 & H2 & H3). eapply accepts_in; rels; rewrite ?H1, ?H2, ?H3; exact I.
  Qed.
  Lemma hypb_iff : hypb_accepts (Some M) (Some e) (Some tol) = true <-> dims M = [] /\ dims e = [] /\ dims tol = [].
  Proof using.
    unfold hypb_accepts, hypb_guess, kepler_equ_hypb, nd_lt, dH. unnd. split.
    - intros H. split; [|split]; apply (accepts_out _ _ _ _ _ H); covs.
    - intros (H1 & H2 & H3). eapply accepts_in; rels; rewrite ?H1, ?H2, ?H3; exact I.
  Qed.
  Lemma uni_iff : uni_accepts (Some dt) (Some al) (Some r0) (Some s0) (Some mu) (Some tol) = true <->
    dims dt = [] /\ dims al = [] /\ dims r0 = [] /\ dims s0 = [] /\ dims mu = [] /\ dims tol = [].
  Proof using.
    unfold uni_accepts. cbv zeta. set (g := @uni_guess _ Num_arrays (Some dt) (Some al) (Some mu)). split.
    - intros H. assert (Ha : dims al = []).
      { destruct (list_eq_dec Nat.eq_dec (dims al) []) as [|E]; [assumption|]. exfalso. revert H. destruct g as [c|]; [|easy]. unfold loop_accepts.
        rewrite (proj1 (uni_vector_alpha c al r0 s0 dt mu E)). unnd. cbn [lift1 obind]. unfold nd_lt. rewrite lift2_none_r. now destruct (lift2 n_add _ _). }
      assert (Hg : exists c, g = Some c /\ cov (dims dt) (Some c) /\ cov (dims mu) (Some c)).
      { assert (Cd : cov (dims dt) g) by (unfold g, uni_guess; covs). assert (Cm : cov (dims mu) g) by (unfold g, uni_guess; covs).
        destruct g as [c|]; [eauto|discriminate H]. }
      destruct Hg as (c & Eg & Cd & Cm). clearbody g. subst g.
      pose proof (kepler_equ_uni_scalar c al r0 s0 dt mu Ha) as K.
      assert (C : forall x, In x [c; r0; s0; dt; mu] -> cov (dims x) (kepler_equ_uni_nd (Some c) (Some al) (Some r0) (Some s0) (Some dt) (Some mu))).
      { intros x Hx o Eo. rewrite Eo in K. destruct K as [[K _] _]. apply K. now apply in_map. }
      assert (D : forall s, cov s (kepler_equ_uni_nd (Some c) (Some al) (Some r0) (Some s0) (Some dt) (Some mu)) -> s = []).
      { intros s Cs. apply (accepts_out _ _ _ _ _ H). unfold nd_lt. unnd. now apply cov_lift2r, cov_lift1. }
      split; [apply D, C; cbn; tauto|]. split; [exact Ha|]. split; [apply D, C; cbn; tauto|]. split; [apply D, C; cbn; tauto|]. split; [apply D, C; cbn; tauto|].
      apply (accepts_out _ _ _ _ _ H). unfold nd_lt. unnd. covs.
    - intros (H1 & H2 & H3 & H4 & H5 & H6).
      assert (Kg : rel [] g (fun i => uni_guess (read dt i) (read al i) (read mu i))) by (unfold g, uni_guess; rels; rewrite ?H1, ?H2, ?H5; exact I).
      destruct (rel0 _ _ Kg) as (c & Eg & Dc). clearbody g. subst g.
      assert (Ke : exists f, rel [] (kepler_equ_uni_nd (Some c) (Some al) (Some r0) (Some s0) (Some dt) (Some mu)) f).
      { pose proof (kepler_equ_uni_scalar c al r0 s0 dt mu H2) as K.
        destruct (kepler_equ_uni_nd (Some c) (Some al) (Some r0) (Some s0) (Some dt) (Some mu)) as [o|].
        - destruct K as [[_ K] _]. exists (read o). apply rel_leaf, K. intros s. cbn. rewrite Dc, H1, H3, H4, H5. intros [<-|[<-|[<-|[<-|[<-|[]]]]]]; exact I.
        - exfalso. apply K. exists []. intros s. cbn. rewrite Dc, H1, H3, H4, H5. intros [<-|[<-|[<-|[<-|[<-|[]]]]]]; exact I. }
      assert (Kd : exists f, rel [] (dchi_nd (Some c) (Some al) (Some r0) (Some s0)) f).
      { pose proof (dchi_scalar c al r0 s0 H2) as K.
        destruct (dchi_nd (Some c) (Some al) (Some r0) (Some s0)) as [o|].
        - destruct K as [[_ K] _]. exists (read o). apply rel_leaf, K. intros s. cbn. rewrite Dc, H3, H4. intros [<-|[<-|[<-|[]]]]; exact I.
        - exfalso. apply K. exists []. intros s. cbn. rewrite Dc, H3, H4. intros [<-|[<-|[<-|[]]]]; exact I. }
      destruct Ke as [fe Ke]. destruct Kd as [fd Kd]. pose proof (leaf0 tol H6) as Kt.
      eapply accepts_in; unfold nd_lt; unnd.
      + exact Kg.
      + apply (rel_lift2 []); [exact Kg|]. apply (rel_lift2 []); [apply rel_scalar|exact Kt].
      + apply (rel_lift2 []); [exact Kt|]. apply (rel_lift1 []). exact Ke.
      + apply (rel_lift2 []); [exact Kg|]. apply (rel_lift2 []); [exact Ke|exact Kd].
  Qed.
End Loops.
