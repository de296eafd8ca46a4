(** * B32Dx: rounding errors of the transition matrix in single precision (proofs for C91) *)
From Coq Require Import ZArith Reals Lra Lia Psatz Bool List.
From Coquelicot Require Import Coquelicot.
From Flocq Require Import Core IEEE754.BinarySingleNaN.
From Verif Require Import Num NumB32 NumR Spec SpecFl SpecFl32 SpecFlV SpecFlStm RLib RelLib RoundAn RoundFn B32Lib B32Acc B32Rel B32An B32Geo B32Uf B32Back StmReal B32Stm.
From Verif Require Import OrbIntegrals Uniformulas UFacts UfReal Lagrange KepEqu StateTrans.
Local Open Scope R_scope.

Section Dx.
  Variable L : libm.
  Let N : Num b32 := Num_B32 L.
  Variables (r v r0 v0 : V3 b32) (dt mu : b32) (c : nat).
  Hypotheses (Gr : good32v 17 r) (Gv : good32v 8 v) (Gr0 : good32v 17 r0) (Gv0 : good32v 8 v0)
    (Gm : good32 20 mu) (Pm : 0 < B2R mu) (Nr : real32 r <> vzero) (Nr0 : real32 r0 <> vzero) (Gd : good32 17 dt).
  Let Q : R := vnorm (real32 r).
  Let Q0 : R := vnorm (real32 r0).
  Let V : R := vnorm (real32 v).
  Let V0 : R := vnorm (real32 v0).
  Let M : R := B2R mu.
  Variables (alpha chi : b32).
  Hypotheses (Eal : @alpha_of _ N (@vector_norm _ N r0) (@vector_norm _ N v0) mu = alpha)
    (Ech : @generalized_anomaly _ N alpha (@sigma_fn _ N r v mu) (@sigma_fn _ N r0 v0 mu) dt mu = chi).
  Let th : R := sqrt (Rabs (B2R alpha)) * Rabs (B2R chi).
  Hypotheses (Hc : (c <= 8)%nat) (Ga : good32 17 alpha) (Gx : good32 12 chi) (Na : B2R alpha <> 0).
  Hypothesis Trig : trig32 L c (2 * IZR (2 ^ 10)) (2 * 10).
  Hypotheses (Bt : 0 < B2R alpha -> th <= IZR (2 ^ 10)) (Bh : B2R alpha < 0 -> th <= 10).
  Let q : R := sqrt (Rabs (B2R alpha)).
  Let S' (n : nat) : R := uf_size n (B2R chi) (B2R alpha).
  Let S4 : R := uf4_size (B2R chi) (B2R alpha).
  Let S5 : R := uf5_size (B2R chi) (B2R alpha).
  Let U' (n : nat) : R := universal n (B2R chi) (B2R alpha).

  Lemma wk (e e' : Z) (k k' : nat) (m : R) (x : b32) (w : R) : Er32 e k m x w -> (k <= k')%nat -> (0 <= e <= e')%Z -> Er32 e' k' m x w.
  Proof using All. intros E K R1. apply (An_weak L _ e' _ k' _ m _ _ E (Rle_refl _) K); [apply (range_mono e); [exact R1 | apply E] | lia]. Qed.
  Lemma wv (e : Z) (k : nat) (m m' : R) (x : b32) (w w' : R) : Er32 e k m x w -> m = m' -> w = w' -> Er32 e k m' x w'.
  Proof using All. intros E <- <-. exact E. Qed.

  Lemma u_all : Er32 30 (c + 8) (S' 1) (@ufunc1 _ N chi alpha) (U' 1) /\ Er32 38 (c + 7) (S' 2) (@ufunc2 _ N chi alpha) (U' 2) /\
    Er32 58 (c + 11) S4 (@ufunc4 _ N chi alpha) (U' 4) /\ Er32 95 (c + 14) S5 (@ufunc5 _ N chi alpha) (U' 5).
  Proof using All.
    destruct (all_nz L chi alpha c Hc Ga Gx Trig Bt Bh Na) as [E0 [E1 [E2 [_ [E4 E5]]]]]. fold N in E0, E1, E2, E4, E5. fold q in E1, E4, E5.
    pose proof (Rabs_pos_lt _ Na) as Pa. assert (Pq : 0 < q) by (apply sqrt_lt_R0; exact Pa). assert (QQ : q * q = Rabs (B2R alpha)) by (apply sqrt_sqrt; lra).
    assert (Z2 : forall n, S' n = 2 * spread (B2R chi) (B2R alpha) / q ^ n).
    { intro n. unfold S', uf_size. destruct (Req_EM_T (B2R alpha) 0) as [X | _]; [contradiction | reflexivity]. }
    rewrite !Z2. split.
    - pose proof (An_m L _ _ _ _ _ E1) as P1.
      apply (An_weak L _ 30 _ (c + 8) _ _ _ _ E1); [rewrite pow_1; unfold Rdiv in *; lra | lia | | lia].
      replace (2 * spread (B2R chi) (B2R alpha) / q ^ 1) with (2 * (spread (B2R chi) (B2R alpha) / q)) by (rewrite pow_1; field; lra).
      apply (range_mul 1 29); [lia | lia | apply range_between; [simpl; lra | lia] | apply E1].
    - split; [| split].
      + apply (wv _ _ _ _ _ _ _ E2); [replace (q ^ 2) with (q * q) by ring; rewrite QQ; reflexivity | reflexivity].
      + apply (wv _ _ _ _ _ _ _ E4); [| reflexivity]. unfold S4, uf4_size. fold q. cbv zeta. simpl pow. rewrite !Rmult_1_r. reflexivity.
      + apply (wv _ _ _ _ _ _ _ E5); [| reflexivity]. unfold S5, uf5_size. fold q. cbv zeta. simpl pow. rewrite !Rmult_1_r. reflexivity.
  Qed.
  Lemma dx_mu : Er32 10 2 (Rabs (sqrt M)) (@n_sqrt _ N mu) (sqrt M).
  Proof using All.
    pose proof (An_good L 20 mu ltac:(lia) Gm) as E. rewrite Rabs_pos_eq in E by lra. rewrite Rabs_pos_eq by apply sqrt_pos.
    pose proof (wk _ (10 + 10) _ 0 _ _ _ E ltac:(lia) ltac:(lia)) as E2.
    exact (An_sqrt L 10 0 _ _ E2 Pm ltac:(lia) ltac:(lia)).
  Qed.
  Lemma dx_smu : 0 < sqrt M. Proof using All. apply sqrt_lt_R0. exact Pm. Qed.
  Lemma dx_sig (x w : V3 b32) : good32v 17 x -> good32v 8 w ->
    Er32 35 7 (vnorm (real32 x) * vnorm (real32 w) / sqrt M) (@sigma_fn _ N x w mu) (dot (real32 x) (real32 w) / sqrt M).
  Proof using All.
    intros Gx' Gw. pose proof dx_smu as P. pose proof (Ev_inner0 L 17 8 x w ltac:(lia) ltac:(lia) ltac:(lia) Gx' Gw) as D.
    pose proof (An_div1 L _ _ _ _ _ _ _ _ _ D dx_mu ltac:(lra) ltac:(lia) ltac:(lia)) as E.
    rewrite (Rabs_pos_eq (sqrt M)) in E by lra. exact E.
  Qed.
  Lemma dx_Q : Er32 17 3 (Rabs Q) (@vector_norm _ N r) Q.
  Proof using All. rewrite Rabs_pos_eq by apply sqrt_pos. exact (Ev_norm0 L 17 r Gr Nr ltac:(lia) ltac:(lia)). Qed.
  Lemma dx_Q0 : Er32 17 3 (Rabs Q0) (@vector_norm _ N r0) Q0.
  Proof using All. rewrite Rabs_pos_eq by apply sqrt_pos. exact (Ev_norm0 L 17 r0 Gr0 Nr0 ltac:(lia) ltac:(lia)). Qed.
  Lemma dxQ : 0 < Q /\ 0 < Q0. Proof using All. split; apply vnorm_pos; assumption. Qed.
  Lemma dx_dt : Er32 17 0 (Rabs (B2R dt)) dt (B2R dt). Proof using All. exact (An_good L 17 dt ltac:(lia) Gd). Qed.
  Lemma dx_one : Er32 0 0 1 (@n_Z _ N 1) 1.
  Proof using All. pose proof (An_Z L 0 1 ltac:(lia) ltac:(lia) ltac:(lia)) as O. rewrite Rabs_R1 in O. exact O. Qed.

  (** ** The generalized anomaly *)
  Lemma chi_off : off 10 (Rabs (B2R alpha) * sqrt M * Rabs (B2R dt) + Q * V / sqrt M + Q0 * V0 / sqrt M) chi
    (B2R alpha * sqrt M * B2R dt + dot (real32 r) (real32 v) / sqrt M - dot (real32 r0) (real32 v0) / sqrt M).
  Proof using All.
    rewrite <- Ech. pose proof (An_good L 17 alpha ltac:(lia) Ga) as A. pose proof dx_mu as S2. rewrite (Rabs_pos_eq (sqrt M)) in S2 by apply sqrt_pos.
    pose proof (An_mul L _ _ _ _ _ _ _ _ _ _ A S2 ltac:(lia) ltac:(lia)) as B.
    pose proof (An_mul L _ _ _ _ _ _ _ _ _ _ B dx_dt ltac:(lia) ltac:(lia)) as D.
    pose proof (An_add L _ _ _ _ _ _ _ _ _ _ D (dx_sig r v Gr Gv) ltac:(lia) ltac:(lia)) as E.
    pose proof (An_sub L _ _ _ _ _ _ _ _ _ _ E (dx_sig r0 v0 Gr0 Gv0) ltac:(lia) ltac:(lia)) as F.
    refine (An_final L 10 _ _ _ _ _ _ _ F _ _ _ _); [lia | simpl; lra | apply Rle_refl | reflexivity].
  Qed.

  (** ** The coefficients *)
  Let mF : R := 1 + S' 2 / Q0.
  Let mG : R := (Q0 * S' 1 + Q0 * V0 / sqrt M * S' 2) / sqrt M.
  Let mFt : R := sqrt M / Q * S' 1 / Q0.
  Let mGt : R := 1 + S' 2 / Q.
  Let mC : R := c_size (B2R chi) (B2R alpha) (B2R dt) M.
  Let Fv : R := 1 - U' 2 / Q0.
  Let Gval : R := (Q0 * U' 1 + dot (real32 r0) (real32 v0) / sqrt M * U' 2) / sqrt M.
  Let Ftv : R := - (sqrt M / Q * U' 1 / Q0).
  Let Gtv : R := 1 - U' 2 / Q.
  Let Cv : R := (3 * U' 5 - B2R chi * U' 4 - sqrt M * B2R dt * U' 2) / sqrt M.
  Let fF := @lagrange_F _ N (@ufunc2 _ N chi alpha) (@vector_norm _ N r0).
  Let fG := @lagrange_G _ N (@ufunc1 _ N chi alpha) (@ufunc2 _ N chi alpha) (@sigma_fn _ N r0 v0 mu) (@vector_norm _ N r0) mu.
  Let fFt := @lagrange_Ft _ N (@ufunc1 _ N chi alpha) (@vector_norm _ N r) (@vector_norm _ N r0) mu.
  Let fGt := @lagrange_Gt _ N (@ufunc2 _ N chi alpha) (@vector_norm _ N r).
  Let fC := @C_func _ N chi (@ufunc2 _ N chi alpha) (@ufunc4 _ N chi alpha) (@ufunc5 _ N chi alpha) dt mu.

  Lemma cF : Er32 56 (c + 21) mF fF Fv.
  Proof using All.
    destruct u_all as [_ [E2 _]]. pose proof dxQ as [P P0].
    pose proof (An_div1 L _ _ _ _ _ _ _ _ _ E2 dx_Q0 ltac:(lra) ltac:(lia) ltac:(lia)) as D. rewrite (Rabs_pos_eq Q0) in D by lra.
    pose proof (An_sub L _ _ _ _ _ _ _ _ _ _ dx_one D ltac:(lia) ltac:(lia)) as A.
    apply (wk _ 56 _ (c + 21) _ _ _ A); lia.
  Qed.
  Lemma cGt : Er32 56 (c + 21) mGt fGt Gtv.
  Proof using All.
    destruct u_all as [_ [E2 _]]. pose proof dxQ as [P P0].
    pose proof (An_div1 L _ _ _ _ _ _ _ _ _ E2 dx_Q ltac:(lra) ltac:(lia) ltac:(lia)) as D. rewrite (Rabs_pos_eq Q) in D by lra.
    pose proof (An_sub L _ _ _ _ _ _ _ _ _ _ dx_one D ltac:(lia) ltac:(lia)) as A.
    apply (wk _ 56 _ (c + 21) _ _ _ A); lia.
  Qed.
  Lemma cG : Er32 84 (c + 21) mG fG Gval.
  Proof using All.
    destruct u_all as [E1 [E2 _]]. pose proof dxQ as [P P0]. pose proof dx_smu as PS.
    pose proof dx_Q0 as HQ. rewrite (Rabs_pos_eq Q0) in HQ by lra.
    pose proof (An_mul L _ _ _ _ _ _ _ _ _ _ HQ E1 ltac:(lia) ltac:(lia)) as A1.
    pose proof (An_mul L _ _ _ _ _ _ _ _ _ _ (dx_sig r0 v0 Gr0 Gv0) E2 ltac:(lia) ltac:(lia)) as A2.
    pose proof (An_add L _ _ _ _ _ _ _ _ _ _ A1 A2 ltac:(lia) ltac:(lia)) as A3.
    pose proof (An_div1 L _ _ _ _ _ _ _ _ _ A3 dx_mu ltac:(lra) ltac:(lia) ltac:(lia)) as D. rewrite (Rabs_pos_eq (sqrt M)) in D by lra.
    apply (wk _ 84 _ (c + 21) _ _ _ D); lia.
  Qed.
  Lemma cFt : Er32 74 (c + 21) mFt fFt Ftv.
  Proof using All.
    destruct u_all as [E1 _]. pose proof dxQ as [P P0]. pose proof dx_smu as PS.
    pose proof (An_neg L _ _ _ _ _ dx_mu) as S1.
    pose proof (An_div1 L _ _ _ _ _ _ _ _ _ S1 dx_Q ltac:(lra) ltac:(lia) ltac:(lia)) as D.
    pose proof (An_mul L _ _ _ _ _ _ _ _ _ _ D E1 ltac:(lia) ltac:(lia)) as D2.
    pose proof (An_div1 L _ _ _ _ _ _ _ _ _ D2 dx_Q0 ltac:(lra) ltac:(lia) ltac:(lia)) as D3.
    rewrite (Rabs_pos_eq Q0), (Rabs_pos_eq Q), (Rabs_pos_eq (sqrt M)) in D3 by lra.
    apply (wk _ 74 _ (c + 21)) in D3; [| lia | lia]. apply (wv _ _ _ _ _ _ _ D3); [reflexivity |]. unfold Ftv. field. lra.
  Qed.
  Lemma cC : Er32 109 (c + 21) mC fC Cv.
  Proof using All.
    destruct u_all as [_ [E2 [E4 E5]]]. pose proof dx_smu as PS.
    pose proof (An_Z L 2 3 ltac:(lia) ltac:(lia) ltac:(lia)) as T3. rewrite (Rabs_pos_eq 3) in T3 by lra.
    pose proof (An_mul L _ _ _ _ _ _ _ _ _ _ T3 E5 ltac:(lia) ltac:(lia)) as A1.
    pose proof (An_mul L _ _ _ _ _ _ _ _ _ _ (An_good L 12 chi ltac:(lia) Gx) E4 ltac:(lia) ltac:(lia)) as A2.
    pose proof dx_mu as SM. rewrite (Rabs_pos_eq (sqrt M)) in SM by lra.
    pose proof (An_mul L _ _ _ _ _ _ _ _ _ _ SM dx_dt ltac:(lia) ltac:(lia)) as B1.
    pose proof (An_mul L _ _ _ _ _ _ _ _ _ _ B1 E2 ltac:(lia) ltac:(lia)) as B2.
    pose proof (An_sub L _ _ _ _ _ _ _ _ _ _ A1 A2 ltac:(lia) ltac:(lia)) as D1.
    pose proof (An_sub L _ _ _ _ _ _ _ _ _ _ D1 B2 ltac:(lia) ltac:(lia)) as D2.
    pose proof (An_div1 L _ _ _ _ _ _ _ _ _ D2 dx_mu ltac:(lra) ltac:(lia) ltac:(lia)) as D. rewrite (Rabs_pos_eq (sqrt M)) in D by lra.
    apply (wk _ 109 _ (c + 21) _ _ _ D); lia.
  Qed.

  Hypotheses (IF : in_range 20 mF) (IG : in_range 20 mG) (IFt : in_range 20 mFt) (IGt : in_range 20 mGt) (IC : in_range 50 mC)
    (IM : in_range 24 (M / Q ^ 2)).
  Lemma dx_ok : let X := @dxdx0 _ N r v r0 v0 dt mu in
    off32m (INR c + 40) (stm_rr_size M Q V Q0 V0 mF mC) (b_rr X) (stm_rr M (real32 r) (real32 v) (real32 r0) (real32 v0) Fv Cv) /\
    off32m (INR c + 35) (stm_rv_size M Q V Q0 V0 mF mG mC) (b_rv X) (stm_rv M (real32 r) (real32 v) (real32 r0) (real32 v0) Fv Gval Cv) /\
    off32m (INR c + 54) (stm_vr_size M Q V Q0 V0 mFt mC) (b_vr X) (stm_vr M (real32 r) (real32 v) (real32 r0) (real32 v0) Ftv Cv) /\
    off32m (INR c + 47) (stm_vv_size M Q V Q0 V0 mF mGt mC) (b_vv X) (stm_vv M (real32 r) (real32 v) (real32 r0) (real32 v0) Fv Gtv Cv).
  Proof using All.
    cbv zeta. assert (Hk : (c + 21 <= 50)%nat) by lia.
    assert (EF : Er32 20 (c + 21) mF fF Fv) by exact (An_weak L _ 20 _ (c + 21) _ _ _ _ cF (Rle_refl _) (le_n _) IF ltac:(lia)).
    assert (EG : Er32 20 (c + 21) mG fG Gval) by exact (An_weak L _ 20 _ (c + 21) _ _ _ _ cG (Rle_refl _) (le_n _) IG ltac:(lia)).
    assert (EFt : Er32 20 (c + 21) mFt fFt Ftv) by exact (An_weak L _ 20 _ (c + 21) _ _ _ _ cFt (Rle_refl _) (le_n _) IFt ltac:(lia)).
    assert (EGt : Er32 20 (c + 21) mGt fGt Gtv) by exact (An_weak L _ 20 _ (c + 21) _ _ _ _ cGt (Rle_refl _) (le_n _) IGt ltac:(lia)).
    assert (EC : Er32 50 (c + 21) mC fC Cv) by exact (An_weak L _ 50 _ (c + 21) _ _ _ _ cC (Rle_refl _) (le_n _) IC ltac:(lia)).
    assert (IM' : in_range 24 (M / (Q * Q))) by (replace (Q * Q) with (Q ^ 2) by ring; exact IM).
    assert (I1 : forall n, INR (c + 21) + n = INR c + (21 + n)) by (intro n; rewrite plus_INR; simpl INR; lra).
    pose proof (rr_ok L r v r0 v0 mu (c + 21) Hk Gr Gv Gr0 Gv0 Gm Pm Nr Nr0 fF fC Fv Cv mF mC EF EC) as A. rewrite I1 in A.
    pose proof (rv_ok L r v r0 v0 mu (c + 21) Hk Gr Gv Gr0 Gv0 Gm Pm Nr Nr0 fF fC Fv Cv mF mC EF EC fG Gval mG EG) as B. rewrite I1 in B.
    pose proof (vr_ok L r v r0 v0 mu (c + 21) Hk Gr Gv Gr0 Gv0 Gm Pm Nr Nr0 fF fC Fv Cv mF mC EF EC IM' fFt Ftv mFt EFt) as D. rewrite I1 in D.
    pose proof (vv_ok L r v r0 v0 mu (c + 21) Hk Gr Gv Gr0 Gv0 Gm Pm Nr Nr0 fF fC Fv Cv mF mC EF EC fGt Gtv mGt EGt) as E. rewrite I1 in E.
    replace (21 + 19) with 40 in A by lra. replace (21 + 14) with 35 in B by lra. replace (21 + 33) with 54 in D by lra. replace (21 + 26) with 47 in E by lra.
    unfold dxdx0. rewrite Eal, Ech. cbn [b_rr b_rv b_vr b_vv].
    split; [exact A |]. split; [exact B |]. split; [exact D | exact E].
  Qed.
End Dx.

Lemma transition_ok (L : libm) (c : nat) : (c <= 8)%nat -> trig32 L c (2 * IZR (2 ^ 10)) (2 * 10) ->
  forall (r v r0 v0 : V3 b32) (dt mu : b32), good32v 17 r -> good32v 8 v -> good32v 17 r0 -> good32v 8 v0 -> good32 20 mu -> 0 < B2R mu ->
  real32 r <> vzero -> real32 r0 <> vzero -> good32 17 dt ->
  let N := Num_B32 L in
  let alpha := @alpha_of _ N (@vector_norm _ N r0) (@vector_norm _ N v0) mu in
  let chi := @generalized_anomaly _ N alpha (@sigma_fn _ N r v mu) (@sigma_fn _ N r0 v0 mu) dt mu in
  good32 17 alpha -> good32 12 chi -> B2R alpha <> 0 ->
  let a := B2R alpha in let x := B2R chi in let th := sqrt (Rabs a) * Rabs x in (0 < a -> th <= IZR (2 ^ 10)) -> (a < 0 -> th <= 10) ->
  let M := B2R mu in let w := sqrt M in let T := B2R dt in
  let q := vnorm (real32 r) in let q0 := vnorm (real32 r0) in let s := vnorm (real32 v) in let s0 := vnorm (real32 v0) in
  let sg := dot (real32 r) (real32 v) / w in let sg0 := dot (real32 r0) (real32 v0) / w in
  let U n := universal n x a in let S n := uf_size n x a in
  let F := 1 - U 2%nat / q0 in let G := (q0 * U 1%nat + sg0 * U 2%nat) / w in let Ft := - (w / q * U 1%nat / q0) in let Gt := 1 - U 2%nat / q in
  let C := (3 * U 5%nat - x * U 4%nat - w * T * U 2%nat) / w in
  let mF := 1 + S 2%nat / q0 in let mG := (q0 * S 1%nat + q0 * s0 / w * S 2%nat) / w in let mFt := w / q * S 1%nat / q0 in let mGt := 1 + S 2%nat / q in
  let mC := c_size x a T M in 
  in_range 20 mF -> in_range 20 mG -> in_range 20 mFt -> in_range 20 mGt -> in_range 50 mC -> in_range 24 (M / q ^ 2) ->
  let X := @dxdx0 _ N r v r0 v0 dt mu in
  (real32 v0 <> vzero -> off 16 (2 / q0 + s0 ^ 2 / M) alpha (2 / q0 - s0 ^ 2 / M)) /\
  off 10 (Rabs a * w * Rabs T + q * s / w + q0 * s0 / w) chi (a * w * T + sg - sg0) /\
  off32m (INR c + 40) (stm_rr_size M q s q0 s0 mF mC) (b_rr X) (stm_rr M (real32 r) (real32 v) (real32 r0) (real32 v0) F C) /\
  off32m (INR c + 35) (stm_rv_size M q s q0 s0 mF mG mC) (b_rv X) (stm_rv M (real32 r) (real32 v) (real32 r0) (real32 v0) F G C) /\
  off32m (INR c + 54) (stm_vr_size M q s q0 s0 mFt mC) (b_vr X) (stm_vr M (real32 r) (real32 v) (real32 r0) (real32 v0) Ft C) /\
  off32m (INR c + 47) (stm_vv_size M q s q0 s0 mF mGt mC) (b_vv X) (stm_vv M (real32 r) (real32 v) (real32 r0) (real32 v0) F Gt C).
Proof.
  intros Hc Trig r v r0 v0 dt mu Gr Gv Gr0 Gv0 Gm Pm Nr Nr0 Gd N. cbv zeta.
  remember (@alpha_of _ N (@vector_norm _ N r0) (@vector_norm _ N v0) mu) as alpha eqn:Eal. symmetry in Eal.
  remember (@generalized_anomaly _ N alpha (@sigma_fn _ N r v mu) (@sigma_fn _ N r0 v0 mu) dt mu) as chi eqn:Ech. symmetry in Ech.
  intros Ga Gx Na Bt Bh IF IG IFt IGt IC IM.
  split; [| split].
  - intro Nv0. rewrite <- Eal. exact (alpha_off L r0 v0 mu (good_v 17 17 _ ltac:(lia) Gr0) (good_v 8 8 _ ltac:(lia) Gv0) (good_s 20 20 _ ltac:(lia) Gm) Pm Nr0 Nv0).
  - exact (chi_off L r v r0 v0 dt mu c Gr Gv Gr0 Gv0 Gm Pm Nr Nr0 Gd alpha chi Eal Ech Hc Ga Gx Na Trig Bt Bh).
  - exact (dx_ok L r v r0 v0 dt mu c Gr Gv Gr0 Gv0 Gm Pm Nr Nr0 Gd alpha chi Eal Ech Hc Ga Gx Na Trig Bt Bh IF IG IFt IGt IC IM).
Qed.
