(** * B64Uvi: rounding errors of the universal Kepler equation and the Lagrange coefficients in double precision (proofs for C81-C83) *)
From Coq Require Import ZArith Reals Lra Lia Psatz Bool List.
From Coquelicot Require Import Coquelicot.
From Flocq Require Import Core IEEE754.BinarySingleNaN.
From Verif Require Import Num NumB64 NumR Spec SpecFl SpecFl64 SpecFlV RLib RelLib RoundAn RoundFn B64Lib B64Acc B64Rel B64An B64Geo B64Uf.
From Verif Require Import OrbIntegrals Uniformulas UFacts UfReal Lagrange KepEqu PropKepler.
Local Open Scope R_scope.

Section Uvi.
  Variable L : libm64.
  Let N : Num b64 := Num_B64 L.
  Variables (chi alpha : b64) (c : nat).
  Let a : R := Rabs (B2R alpha).
  Let q : R := sqrt a.
  Let th : R := q * Rabs (B2R chi).
  Let M : R := spread (B2R chi) (B2R alpha).
  Let S' (n : nat) : R := uf_size n (B2R chi) (B2R alpha).
  Let U' (n : nat) : R := universal n (B2R chi) (B2R alpha).
  Hypotheses (Hc : (c <= 8)%nat) (Ga : good64 100 alpha) (Gx : good64 100 chi).
  Hypothesis Trig : trig64 L c (2 * IZR (2 ^ 30)) (2 * 100).
  Hypotheses (Bt : 0 < B2R alpha -> th <= IZR (2 ^ 30)) (Bh : B2R alpha < 0 -> th <= 100).

  Lemma uf_par : B2R alpha = 0 ->
    Er64 167 (c + 11) (S' 0) (@ufunc0 _ N chi alpha) (U' 0) /\ Er64 217 (c + 11) (S' 1) (@ufunc1 _ N chi alpha) (U' 1) /\
    Er64 267 (c + 11) (S' 2) (@ufunc2 _ N chi alpha) (U' 2) /\ Er64 317 (c + 11) (S' 3) (@ufunc3 _ N chi alpha) (U' 3).
  Proof using All.
    intro Z0. destruct (gt_0 L chi alpha c Hc Ga Gx Trig Bt Bh) as [B1 B2]. rewrite Z0 in B1, B2. rewrite Rlt_bool_false in B1, B2 by lra.
    unfold ufunc0, ufunc1, ufunc2, ufunc3. fold N in B1, B2. rewrite B1, B2. cbn [where_ npow npow_aux mul_opt].
    unfold S', U', uf_size. rewrite Z0. destruct (uf_zero (B2R chi)) as [-> [-> [-> [-> _]]]].
    destruct (Req_EM_T 0 0) as [_ | X]; [| contradiction].
    pose proof (An_good L 100 chi ltac:(lia) Gx) as X.
    pose proof (An_mul L _ _ _ _ _ _ _ _ _ _ X X ltac:(lia) ltac:(lia)) as X2.
    pose proof (An_mul L _ _ _ _ _ _ _ _ _ _ X X2 ltac:(lia) ltac:(lia)) as X3.
    pose proof (An_Z L 0 1 ltac:(lia) ltac:(lia) ltac:(lia)) as O. rewrite Rabs_R1 in O.
    pose proof (An_Z L 1 2 ltac:(lia) ltac:(lia) ltac:(lia)) as T.
    pose proof (An_Z L 3 6 ltac:(lia) ltac:(lia) ltac:(lia)) as S6.
    pose proof (An_div1 L _ _ _ _ _ _ _ _ _ X2 T ltac:(lra) ltac:(lia) ltac:(lia)) as D2.
    pose proof (An_div1 L _ _ _ _ _ _ _ _ _ X3 S6 ltac:(lra) ltac:(lia) ltac:(lia)) as D3.
    rewrite (Rabs_pos_eq 2) in D2 by lra. rewrite (Rabs_pos_eq 6) in D3 by lra.
    assert (Fin : forall r r' k m m' x v v', Er64 r k m x v -> (0 <= r <= r')%Z -> (k <= c + 11)%nat -> m = m' -> v = v' -> Er64 r' (c + 11) m' x v').
    { intros r r' k m m' x v v' E R1 K <- <-. apply (An_weak L _ r' _ (c + 11) _ m _ _ E (Rle_refl _) K); [apply (range_mono r); [exact R1 | apply E] | lia]. }
    split; [apply (Fin _ _ _ _ _ _ _ _ O); [lia | lia | simpl; field | reflexivity] |].
    split; [apply (Fin _ _ _ _ _ _ _ _ X); [lia | lia | simpl; field | reflexivity] |].
    split; [apply (Fin _ _ _ _ _ _ _ _ D2); [lia | lia | simpl; field | simpl; field] |].
    apply (Fin _ _ _ _ _ _ _ _ D3); [lia | lia | simpl; field | simpl; field].
  Qed.
  Lemma uf_any :
    Er64 167 (c + 11) (S' 0) (@ufunc0 _ N chi alpha) (U' 0) /\ Er64 217 (c + 11) (S' 1) (@ufunc1 _ N chi alpha) (U' 1) /\
    Er64 267 (c + 11) (S' 2) (@ufunc2 _ N chi alpha) (U' 2) /\ Er64 317 (c + 11) (S' 3) (@ufunc3 _ N chi alpha) (U' 3).
  Proof using All.
    destruct (Req_EM_T (B2R alpha) 0) as [Z0 | Nz]; [exact (uf_par Z0) |].
    destruct (all_nz L chi alpha c Hc Ga Gx Trig Bt Bh Nz) as [E0 [E1 [E2 [E3 _]]]]. fold N in E0, E1, E2, E3. fold M a in E0, E1, E2, E3. fold q in E1, E3.
    pose proof (Rabs_pos_lt _ Nz) as Pa. fold a in Pa. assert (Q : 0 < q) by (apply sqrt_lt_R0; exact Pa). assert (QQ : q * q = a) by (apply sqrt_sqrt; lra).
    pose proof (An_m L _ _ _ _ _ E0) as M0. pose proof (An_m L _ _ _ _ _ E1) as M1'.
    assert (Z2 : forall n, S' n = 2 * M / q ^ n).
    { intro n. unfold S', uf_size. destruct (Req_EM_T (B2R alpha) 0) as [X | _]; [contradiction | reflexivity]. }
    rewrite !Z2.
    assert (RM : in_range 167 (2 * M)) by (apply (range_mul 1 166); [lia | lia | apply range_between; [simpl; lra | lia] | apply E0]).
    assert (Rq : forall n d r, (0 <= d)%Z -> in_range d (q ^ n) -> (d + 167 <= r)%Z -> in_range r (2 * M / q ^ n)).
    { intros n d r D I H. apply (range_mono (167 + d)); [lia |]. apply range_div; [lia | exact D | exact RM | exact I]. }
    assert (Iq : in_range 50 q). { destruct Ga as [_ I]. apply range_sqrt; [lia | exact Pa |]. apply (range_mono 100); [lia |]. unfold a. destruct I as [I | I]; [left; rewrite I; apply Rabs_R0 | right; rewrite Rabs_Rabsolu; exact I]. }
    assert (Iq2 : in_range 100 (q ^ 2)) by (simpl; rewrite Rmult_1_r; apply (range_mul 50 50); [lia | lia | exact Iq | exact Iq]).
    assert (Iq3 : in_range 150 (q ^ 3)).
    { replace (q ^ 3) with (a * q) by (rewrite <- QQ; ring). apply (range_mul 100 50); [lia | lia | | exact Iq].
      destruct Ga as [_ I]. unfold a. destruct I as [I | I]; [left; rewrite I; apply Rabs_R0 | right; rewrite Rabs_Rabsolu; exact I]. }
    split; [apply (An_weak L _ 167 _ (c + 11) _ _ _ _ E0); [simpl; lra | lia | apply (Rq 0%nat 0%Z 167%Z); [lia | apply range_between; [simpl; lra | lia] | lia] | lia] |].
    split; [apply (An_weak L _ 217 _ (c + 11) _ _ _ _ E1); [simpl; rewrite Rmult_1_r; unfold Rdiv in *; lra | lia | apply (Rq 1%nat 50%Z 217%Z); [lia | simpl; rewrite Rmult_1_r; exact Iq | lia] | lia] |].
    split; [apply (An_weak L _ 267 _ (c + 11) _ _ _ _ E2); [right; simpl; rewrite Rmult_1_r, QQ; reflexivity | lia | apply (Rq 2%nat 100%Z 267%Z); [lia | exact Iq2 | lia] | lia] |].
    apply (An_weak L _ 317 _ (c + 11) _ _ _ _ E3); [right; rewrite <- QQ; simpl; field; lra | lia | apply (Rq 3%nat 150%Z 317%Z); [lia | exact Iq3 | lia] | lia].
  Qed.

  (** ** Kepler's equation and the radius *)
  Variables (r0 s0 dt mu : b64).
  Hypotheses (Gr : good64 100 r0) (Pr : 0 < B2R r0) (Gs : good64 100 s0) (Gt : good64 100 dt) (Gm : good64 100 mu) (Pm : 0 < B2R mu).
  Lemma r0_ok : Er64 100 0 (B2R r0) r0 (B2R r0).
  Proof using All. pose proof (An_good L 100 r0 ltac:(lia) Gr) as E. rewrite Rabs_pos_eq in E by lra. exact E. Qed.
  Lemma s0_ok : Er64 100 0 (Rabs (B2R s0)) s0 (B2R s0).
  Proof using All. exact (An_good L 100 s0 ltac:(lia) Gs). Qed.
  Lemma smu_ok : Er64 50 2 (sqrt (B2R mu)) (@n_sqrt _ N mu) (sqrt (B2R mu)).
  Proof using All.
    pose proof (An_good L 100 mu ltac:(lia) Gm) as E. rewrite Rabs_pos_eq in E by lra.
    pose proof (An_weak L _ (50 + 50) _ 0 _ _ _ _ E (Rle_refl _) ltac:(lia) ltac:(apply (range_mono 100); [lia | apply E]) ltac:(lia)) as E2.
    exact (An_sqrt L 50 0 _ _ E2 Pm ltac:(lia) ltac:(lia)).
  Qed.
  Let Fin (r r' : Z) (k k' : nat) (m m' : R) (x : b64) (v v' : R) : Er64 r k m x v -> (0 <= r <= r')%Z -> (k <= k')%nat -> m = m' -> v = v' -> Er64 r' k' m' x v'.
  Proof using L N.
    intros E R1 K <- <-. apply (An_weak L _ r' _ k' _ m _ _ E (Rle_refl _) K); [apply (range_mono r); [exact R1 | apply E] | lia].
  Qed.
  Let KB : R := B2R r0 * S' 1 + Rabs (B2R s0) * S' 2 + S' 3 + sqrt (B2R mu) * Rabs (B2R dt).
  Lemma kep_ok : Er64 370 (c + 15) KB (@kepler_equ_uni _ N chi alpha r0 s0 dt mu)
      (B2R r0 * U' 1 + B2R s0 * U' 2 + U' 3 - sqrt (B2R mu) * B2R dt).
  Proof using All.
    destruct uf_any as [_ [E1 [E2 E3]]].
    pose proof (An_mul L _ _ _ _ _ _ _ _ _ _ r0_ok E1 ltac:(lia) ltac:(lia)) as A1.
    pose proof (An_mul L _ _ _ _ _ _ _ _ _ _ s0_ok E2 ltac:(lia) ltac:(lia)) as A2.
    pose proof (An_add L _ _ _ _ _ _ _ _ _ _ A1 A2 ltac:(lia) ltac:(lia)) as A3.
    pose proof (An_add L _ _ _ _ _ _ _ _ _ _ A3 E3 ltac:(lia) ltac:(lia)) as A4.
    pose proof (An_mul L _ _ _ _ _ _ _ _ _ _ smu_ok (An_good L 100 dt ltac:(lia) Gt) ltac:(lia) ltac:(lia)) as A5.
    pose proof (An_sub L _ _ _ _ _ _ _ _ _ _ A4 A5 ltac:(lia) ltac:(lia)) as A6.
    apply (Fin _ _ _ _ _ _ _ _ _ A6); [lia | lia | reflexivity | reflexivity].
  Qed.
  Let RB : R := B2R r0 * S' 0 + Rabs (B2R s0) * S' 1 + S' 2.
  Let rad : R := B2R r0 * U' 0 + B2R s0 * U' 1 + U' 2.
  Lemma rad_ok : Er64 319 (c + 14) RB (@dchi _ N chi alpha r0 s0) rad.
  Proof using All.
    destruct uf_any as [E0 [E1 [E2 _]]].
    pose proof (An_mul L _ _ _ _ _ _ _ _ _ _ r0_ok E0 ltac:(lia) ltac:(lia)) as A1.
    pose proof (An_mul L _ _ _ _ _ _ _ _ _ _ s0_ok E1 ltac:(lia) ltac:(lia)) as A2.
    pose proof (An_add L _ _ _ _ _ _ _ _ _ _ A1 A2 ltac:(lia) ltac:(lia)) as A3.
    pose proof (An_add L _ _ _ _ _ _ _ _ _ _ A3 E2 ltac:(lia) ltac:(lia)) as A4.
    apply (Fin _ _ _ _ _ _ _ _ _ A4); [lia | lia | reflexivity | reflexivity].
  Qed.
  Lemma F_ok : Er64 368 (c + 14) (1 + S' 2 / B2R r0) (@lagrange_F _ N (@ufunc2 _ N chi alpha) r0) (1 - U' 2 / B2R r0).
  Proof using All.
    destruct uf_any as [_ [_ [E2 _]]].
    assert (R0 : Er64 100 0 (Rabs (B2R r0)) r0 (B2R r0)) by exact (An_good L 100 r0 ltac:(lia) Gr).
    pose proof (An_div1 L _ _ _ _ _ _ _ _ _ E2 R0 ltac:(lra) ltac:(lia) ltac:(lia)) as D. rewrite (Rabs_pos_eq (B2R r0)) in D by lra.
    pose proof (An_Z L 0 1 ltac:(lia) ltac:(lia) ltac:(lia)) as O. rewrite Rabs_R1 in O.
    pose proof (An_sub L _ _ _ _ _ _ _ _ _ _ O D ltac:(lia) ltac:(lia)) as A.
    apply (Fin _ _ _ _ _ _ _ _ _ A); [lia | lia | reflexivity | reflexivity].
  Qed.
  Lemma G_ok : Er64 418 (c + 17) ((B2R r0 * S' 1 + Rabs (B2R s0) * S' 2) / sqrt (B2R mu))
      (@lagrange_G _ N (@ufunc1 _ N chi alpha) (@ufunc2 _ N chi alpha) s0 r0 mu) ((B2R r0 * U' 1 + B2R s0 * U' 2) / sqrt (B2R mu)).
  Proof using All.
    destruct uf_any as [_ [E1 [E2 _]]]. pose proof (sqrt_lt_R0 _ Pm) as Q.
    pose proof (An_mul L _ _ _ _ _ _ _ _ _ _ r0_ok E1 ltac:(lia) ltac:(lia)) as A1.
    pose proof (An_mul L _ _ _ _ _ _ _ _ _ _ s0_ok E2 ltac:(lia) ltac:(lia)) as A2.
    pose proof (An_add L _ _ _ _ _ _ _ _ _ _ A1 A2 ltac:(lia) ltac:(lia)) as A3.
    assert (S0 : Er64 50 2 (Rabs (sqrt (B2R mu))) (@n_sqrt _ N mu) (sqrt (B2R mu))) by (rewrite Rabs_pos_eq by lra; exact smu_ok).
    pose proof (An_div1 L _ _ _ _ _ _ _ _ _ A3 S0 ltac:(lra) ltac:(lia) ltac:(lia)) as D. rewrite (Rabs_pos_eq (sqrt _)) in D by lra.
    apply (Fin _ _ _ _ _ _ _ _ _ D); [lia | lia | reflexivity | reflexivity].
  Qed.

  (** ** The coefficients that divide by the radius at [chi] *)
  Hypotheses (Ir : in_range 100 rad) (Rp : 0 < rad) (Cr : 3000 * / IZR (2 ^ 53) * RB <= rad).
  Lemma rad_cond : gam u64 (c + 14) * RB <= Rabs rad / 100.
  Proof using All.
    pose proof (An_m L _ _ _ _ _ rad_ok) as B0. rewrite (Rabs_pos_eq rad) by lra.
    assert (U0 : 0 <= u64) by (unfold u64, eps; lra).
    pose proof (gam_mono' u64 U0 (c + 14) 22 ltac:(lia)) as G1.
    assert (G2 : gam u64 22 <= 30 * / IZR (2 ^ 53)).
    { unfold gam, u64, eps. change (IZR (2 ^ 53)) with 9007199254740992. simpl pow. lra. }
    assert (gam u64 (c + 14) * RB <= 30 * / IZR (2 ^ 53) * RB) by (apply Rmult_le_compat_r; lra). lra.
  Qed.
  Lemma ratio_range : in_range 42 (RB / rad).
  Proof using All.
    apply range_between; [| lia].
    assert (B1 : rad <= RB). { destruct rad_ok as [_ [_ [B _]]]. rewrite Rabs_pos_eq in B by lra. exact B. }
    split.
    - apply Rle_trans with 1; [simpl; lra |]. apply Rmult_le_reg_r with rad; [exact Rp |]. unfold Rdiv. rewrite Rmult_assoc, Rinv_l, Rmult_1_r, Rmult_1_l by lra. exact B1.
    - apply Rmult_le_reg_r with rad; [exact Rp |]. unfold Rdiv. rewrite Rmult_assoc, Rinv_l, Rmult_1_r by lra.
      change (IZR (2 ^ 53)) with 9007199254740992 in Cr. change (IZR (2 ^ 42)) with 4398046511104. lra.
  Qed.
  Let mFt : R := sqrt (B2R mu) * RB / rad ^ 2 * S' 1 / B2R r0.
  Lemma Ft_ok : Er64 509 (c + 14 + 2 + 2 + c + 11 + 1 + 2) mFt (@lagrange_Ft _ N (@ufunc1 _ N chi alpha) (@dchi _ N chi alpha r0 s0) r0 mu)
      (- (sqrt (B2R mu) * U' 1 / (rad * B2R r0))).
  Proof using All.
    destruct uf_any as [_ [E1 _]]. pose proof (An_neg L _ _ _ _ _ smu_ok) as S1.
    assert (Rg : in_range 192 (sqrt (B2R mu) * RB / rad ^ 2)).
    { replace (sqrt (B2R mu) * RB / rad ^ 2) with (sqrt (B2R mu) * (RB / rad) / rad) by (field; lra).
      apply (range_div (50 + 42) 100); [lia | lia | | exact Ir]. apply range_mul; [lia | lia | apply smu_ok | exact ratio_range]. }
    pose proof (An_div L 50 319 192 _ _ _ _ _ _ _ _ S1 rad_ok ltac:(lra) rad_cond Rg ltac:(lia) ltac:(lia)) as D.
    pose proof (An_mul L _ _ _ _ _ _ _ _ _ _ D E1 ltac:(lia) ltac:(lia)) as D2.
    assert (R0 : Er64 100 0 (Rabs (B2R r0)) r0 (B2R r0)) by exact (An_good L 100 r0 ltac:(lia) Gr).
    pose proof (An_div1 L _ _ _ _ _ _ _ _ _ D2 R0 ltac:(lra) ltac:(lia) ltac:(lia)) as D3. rewrite (Rabs_pos_eq (B2R r0)) in D3 by lra.
    apply (Fin _ _ _ _ _ _ _ _ _ D3); [lia | lia | reflexivity | field; lra].
  Qed.
  Let mGt : R := 1 + S' 2 * RB / rad ^ 2.
  Lemma Gt_ok : Er64 410 (c + 11 + c + 14 + 3) mGt (@lagrange_Gt _ N (@ufunc2 _ N chi alpha) (@dchi _ N chi alpha r0 s0)) (1 - U' 2 / rad).
  Proof using All.
    destruct uf_any as [_ [_ [E2 _]]].
    assert (Rg : in_range 409 (S' 2 * RB / rad ^ 2)).
    { replace (S' 2 * RB / rad ^ 2) with (S' 2 * (RB / rad) / rad) by (field; lra).
      apply (range_div (267 + 42) 100); [lia | lia | | exact Ir]. apply range_mul; [lia | lia | apply E2 | exact ratio_range]. }
    pose proof (An_div L 267 319 409 _ _ _ _ _ _ _ _ E2 rad_ok ltac:(lra) rad_cond Rg ltac:(lia) ltac:(lia)) as D.
    pose proof (An_Z L 0 1 ltac:(lia) ltac:(lia) ltac:(lia)) as O. rewrite Rabs_R1 in O.
    pose proof (An_sub L _ _ _ _ _ _ _ _ _ _ O D ltac:(lia) ltac:(lia)) as E.
    apply (Fin _ _ _ _ _ _ _ _ _ E); [lia | lia | reflexivity | reflexivity].
  Qed.
  Variables (x v : V3 b64).
  Hypotheses (Gxv : good64v 100 x) (Gvv : good64v 100 v).
  Lemma state_ok : let s := @state_at_chi _ (Num_B64 L) chi alpha s0 r0 x v mu in
    let t := lagrange_state (B2R chi) (B2R alpha) (B2R s0) (B2R r0) (B2R mu) (real64 x) (real64 v) in
    off64v (INR c + 21) ((1 + S' 2 / B2R r0) * vnorm (real64 x) + (B2R r0 * S' 1 + Rabs (B2R s0) * S' 2) / sqrt (B2R mu) * vnorm (real64 v)) (fst s) (fst t) /\
    off64v (2 * INR c + 36) (mFt * vnorm (real64 x) + mGt * vnorm (real64 v)) (snd s) (snd t).
  Proof using All.
    cbv zeta. pose proof (Ev_good L 100 x ltac:(lia) Gxv) as X. pose proof (Ev_good L 100 v ltac:(lia) Gvv) as V.
    pose proof (Ev_scale L _ _ _ _ _ _ _ _ _ _ F_ok X ltac:(lia) ltac:(lia)) as A1.
    pose proof (Ev_scale L _ _ _ _ _ _ _ _ _ _ G_ok V ltac:(lia) ltac:(lia)) as A2.
    pose proof (Ev_add L _ _ _ _ _ _ _ _ _ _ A1 A2 ltac:(lia) ltac:(lia)) as A3.
    pose proof (Ev_scale L _ _ _ _ _ _ _ _ _ _ Ft_ok X ltac:(lia) ltac:(lia)) as B1.
    pose proof (Ev_scale L _ _ _ _ _ _ _ _ _ _ Gt_ok V ltac:(lia) ltac:(lia)) as B2.
    pose proof (Ev_add L _ _ _ _ _ _ _ _ _ _ B1 B2 ltac:(lia) ltac:(lia)) as B3.
    assert (Ic : INR c <= 8) by (apply le_INR in Hc; simpl in Hc; lra).
    split.
    - apply (Ev_final L (INR c + 21) _ _ _ _ _ _ _ A3); [lia | | lra | reflexivity].
      apply Rle_trans with (INR (c + 20) ); [| rewrite plus_INR; simpl; lra].
      match goal with |- INR ?k + 1 <= _ => replace k with (c + 19)%nat by lia end. rewrite !plus_INR. simpl. lra.
    - apply (Ev_final L (2 * INR c + 36) _ _ _ _ _ _ _ B3); [lia | | lra | reflexivity].
      match goal with |- INR ?k + 1 <= _ => replace k with (c + c + 34)%nat by lia end. rewrite !plus_INR. simpl. lra.
  Qed.
End Uvi.
