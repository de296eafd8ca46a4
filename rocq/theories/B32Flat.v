(** * B32Flat: universal functions of a tiny argument in single precision (proofs for C106) *)
From Coq Require Import ZArith Reals Lra Lia Psatz Bool List.
From Coquelicot Require Import Coquelicot.
From Flocq Require Import Core IEEE754.BinarySingleNaN.
From Verif Require Import Num NumB32 NumB64 NumR Spec SpecFl SpecFl32 SpecFlV SpecTiny RLib RelLib RoundAn RoundFn B32Lib B32Acc B32Rel B32An B32Stop B32Back TinyReal.
From Verif Require Import OrbIntegrals Uniformulas Lagrange KepEqu StateTrans PropKepler.
From Verif Require B32Uni B32Newton.
Local Open Scope R_scope.

(** ** Correct rounding is flat *)
Lemma nearest_rnd (y : R) : nearest32 y = rnd y.
Proof. reflexivity. Qed.
Lemma rnd_dist (x y : R) : F32 x -> Rabs (rnd y - x) <= 2 * Rabs (y - x).
Proof.
  intro F. pose proof (proj2 (round_N_pt radix2 fx (fun z => negb (Z.even z)) y) x F) as H.
  change (Rabs (rnd y - y) <= Rabs (x - y)) in H. rewrite (Rabs_minus_sym x y) in H.
  replace (rnd y - x) with ((rnd y - y) + (y - x)) by ring. apply Rle_trans with (1 := Rabs_triang _ _). lra.
Qed.
Lemma alone (x g : R) : F32 x -> F32 g -> 0 < x -> Rabs (g - x) <= x * (/ 2 * / IZR (2 ^ 24)) -> g = x.
Proof.
  intros Fx Fg X D. assert (E : 0 < / IZR (2 ^ 24) <= / 1000) by (simpl; lra). apply Rabs_le_inv in D.
  assert (U : forall y, 0 < y -> y * / IZR (2 ^ 24) < ulp radix2 fx y).
  { intros y Y. pose proof (ulp_FLT_gt radix2 (-149) 24 y ) as H. rewrite Rabs_pos_eq in H by lra.
    replace (/ IZR (2 ^ 24)) with (bpow radix2 (- (24))) by (simpl; lra). apply H. }
  destruct (Rtotal_order g x) as [B | [B | B]]; [| exact B |]; exfalso.
  - assert (G : 0 < g) by nra. pose proof (succ_le_lt radix2 fx g x Fg Fx B) as P. rewrite succ_eq_pos in P by lra. pose proof (U g G). nra.
  - pose proof (succ_le_lt radix2 fx x g Fx Fg B) as P. rewrite succ_eq_pos in P by lra. pose proof (U x X). nra.
Qed.
Lemma same_float (f x : b32) : is_finite f = true -> is_finite x = true -> B2R x <> 0 -> B2R f = B2R x -> f = x.
Proof.
  intros F X N E. apply B2R_inj; [apply is_finite_strict_B2R; rewrite E; exact N | apply is_finite_strict_B2R; exact N | exact E].
Qed.
Lemma rounded_id (f : b32 -> b32) (g : R -> R) (x : b32) : is_finite x = true -> B2R x <> 0 -> B2R x ^ 2 <= / IZR (2 ^ 24) ->
  rounded32 f g -> (forall y, y ^ 2 <= / 100 -> Rabs (g y - y) <= Rabs y * (y ^ 2 / 5)) -> f x = x.
Proof.
  intros Fx N B R C. assert (E : 0 < / IZR (2 ^ 24) <= / 1000) by (simpl; lra). destruct (R x Fx N B) as [F V]. rewrite nearest_rnd in V. apply same_float; try assumption. rewrite V.
  pose proof (C (B2R x) ltac:(lra)) as D. pose proof (rnd_dist (B2R x) (g (B2R x)) (F32_B2R x)) as D2.
  assert (A : Rabs (rnd (g (B2R x)) - B2R x) <= Rabs (B2R x) * (/ 2 * / IZR (2 ^ 24))).
  { apply Rle_trans with (1 := D2). apply Rle_trans with (2 * (Rabs (B2R x) * (B2R x ^ 2 / 5))); [lra |]. pose proof (Rabs_pos (B2R x)). nra. }
  assert (Fr : F32 (rnd (g (B2R x)))) by (apply generic_format_round; [apply FLT_exp_valid; reflexivity | apply valid_rnd_N]).
  destruct (Rlt_dec 0 (B2R x)) as [P | P].
  - rewrite (Rabs_pos_eq (B2R x)) in A by lra. apply alone; [apply F32_B2R | exact Fr | exact P | exact A].
  - rewrite (Rabs_left1 (B2R x)) in A by lra. assert (K : - rnd (g (B2R x)) = - B2R x); [| lra]. apply alone; [apply F32_opp, F32_B2R | apply F32_opp, Fr | lra |].
    replace (- rnd (g (B2R x)) - - B2R x) with (- (rnd (g (B2R x)) - B2R x)) by ring. rewrite Rabs_Ropp. exact A.
Qed.
Lemma rounded_one (f : b32 -> b32) (g : R -> R) (x : b32) : is_finite x = true -> B2R x <> 0 -> B2R x ^ 2 <= / IZR (2 ^ 24) ->
  rounded32 f g -> (1 - B2R x ^ 2 / 2 < g (B2R x) <= 1 \/ 1 <= g (B2R x) <= 1 + 3 / 5 * B2R x ^ 2) -> f x = b32_Z 1.
Proof.
  intros Fx N B R C. destruct (R x Fx N B) as [F V]. rewrite nearest_rnd in V. destruct B32Uni.one_value as [V1 F1].
  assert (F1' : F32 1) by (rewrite <- V1; apply F32_B2R).
  apply same_float; [exact F | exact F1 | rewrite V1; lra |]. rewrite V1. pose proof (rnd_dist 1 (g (B2R x)) F1') as D. rewrite <- V in D.
  destruct C as [C | C].
  - destruct (B32Uni.one_minus (f x) F) as [O | O]; [exact O | exfalso]. rewrite Rabs_minus_sym in O. rewrite (Rabs_left1 (g (B2R x) - 1)) in D by lra.
    change (IZR (2 ^ 24)) with 16777216 in B. lra.
  - pose proof (rnd_ge (g (B2R x)) 1 F1' (proj1 C)) as G. rewrite <- V in G. destruct G as [G | G]; [exfalso | symmetry; exact G].
    pose proof (succ_le_lt radix2 fx 1 (B2R (f x)) F1' (F32_B2R (f x)) G) as P. rewrite succ_eq_pos in P by lra.
    assert (ulp radix2 fx 1 = / 8388608) by (change 1 with (bpow radix2 0); rewrite ulp_bpow; change (fx (0 + 1)) with (-23)%Z; simpl; lra).
    rewrite (Rabs_pos_eq (g (B2R x) - 1)) in D by lra. rewrite Rabs_pos_eq in D by lra. change (IZR (2 ^ 24)) with 16777216 in B. lra.
Qed.
Lemma rounded_flat (L : libm) : rounded32 (m_cos L) cos -> rounded32 (m_cosh L) cosh -> rounded32 (m_sin L) sin -> rounded32 (m_sinh L) sinh -> flat32 L.
Proof.
  intros C Ch S Sh x F N B. assert (E : 0 < / IZR (2 ^ 24) <= / 1000) by (simpl; lra).
  split; [apply (rounded_one _ cos); try assumption; left; apply cos_gt_quad; [exact N | lra] |].
  split; [apply (rounded_one _ cosh); try assumption; right; apply cosh_le_quad; lra |].
  split; [apply (rounded_id _ sin); try assumption | apply (rounded_id _ sinh); try assumption]; intros y Y; apply sines_close; exact Y.
Qed.

Section Flat.
  Variable L : libm.
  Let N : Num b32 := Num_B32 L.
  Hypothesis FL : flat32 L.
  Variables chi alpha : b32.
  Let a : R := Rabs (B2R alpha).
  Hypotheses (Ga : good32 30 alpha) (Gx : good32 12 chi) (Na : B2R alpha <> 0) (Nx : B2R chi <> 0).
  Hypothesis Sm : a * B2R chi ^ 2 <= 9 / 10 * / IZR (2 ^ 24).

  Let ap : 0 < a.
  Proof using Na. apply Rabs_pos_lt. exact Na. Qed.
  Lemma zero_div (d s : b32) : fin32 d -> B2R d = 0 -> B2R s <> 0 -> B2R (@n_div _ N d s) = 0 /\ fin32 (@n_div _ N d s).
  Proof using.
    intros F Z S. destruct (f_div' L d s F S) as [V W]; [rewrite Z; unfold Rdiv; rewrite Rmult_0_l, Rabs_R0; apply Rmult_le_pos; [lra | apply IZR_le; lia] |].
    split; [| exact W]. change (Num_B32 L) with N in V. rewrite V, Z. unfold Rdiv. rewrite Rmult_0_l. apply rd_0'.
  Qed.
  Lemma zero_sub (d : b32) : fin32 d -> B2R (@n_sub _ N d d) = 0 /\ fin32 (@n_sub _ N d d).
  Proof using.
    intro F. destruct (f_sub' L d d F F) as [V W]; [rewrite Rminus_diag_eq, Rabs_R0 by reflexivity; apply Rmult_le_pos; [lra | apply IZR_le; lia] |].
    split; [| exact W]. change (Num_B32 L) with N in V. rewrite V, Rminus_diag_eq by reflexivity. apply rd_0'.
  Qed.
  Lemma arg_ok (s : b32) : good32 30 s -> B2R s = a -> let q := @n_sqrt _ N s in let z := @n_mul _ N q chi in
    fin32 q /\ B2R q <> 0 /\ fin32 z /\ B2R z <> 0 /\ B2R z ^ 2 <= / IZR (2 ^ 24) /\ exists r k, Er32 r k (Rabs (B2R chi)) (@n_div _ N z q) (B2R chi) /\ (r <= 60)%Z /\ (k <= 7)%nat.
  Proof using All.
    intros Gs Es q z. assert (Q : 0 < sqrt a) by (apply sqrt_lt_R0; exact ap). assert (QQ : sqrt a * sqrt a = a) by (apply sqrt_sqrt; lra).
    pose proof (An_good L 30 s ltac:(lia) Gs) as E. rewrite Rabs_pos_eq in E by lra. rewrite Es in E.
    pose proof (An_weak L _ (15 + 15) _ 0 _ _ _ _ E (Rle_refl _) ltac:(lia) ltac:(apply (range_mono 30); [lia | apply E]) ltac:(lia)) as E2.
    assert (Eq : Er32 15 2 (sqrt a) q (sqrt a)) by exact (An_sqrt L 15 0 _ _ E2 ap ltac:(lia) ltac:(lia)).
    pose proof (An_mul L _ _ _ _ _ _ _ _ _ _ Eq (An_good L 12 chi ltac:(lia) Gx) ltac:(lia) ltac:(lia)) as Ez. change (Num_B32 L) with N in Ez. fold z in Ez.
    assert (G : forall k, (k <= 5)%nat -> 0 <= gam u32 k <= / 100).
    { intros k K. assert (U0 : 0 <= u32) by (unfold u32, eps; lra). split; [apply gam_pos'; exact U0 |].
      apply Rle_trans with (1 := gam_mono' u32 U0 k 5 K). unfold gam, u32, eps. simpl pow. lra. }
    assert (Cx : 0 < Rabs (B2R chi)) by (apply Rabs_pos_lt; exact Nx).
    assert (q0 : B2R q <> 0).
    { destruct Eq as [_ [D _]]. intro Z. rewrite Z in D. match type of D with _ <= gam u32 ?k * _ => pose proof (G k ltac:(lia)) end.
      replace (0 - sqrt a) with (- sqrt a) in D by ring. rewrite Rabs_Ropp, Rabs_pos_eq in D by lra. nra. }
    assert (Dz : Rabs (B2R z - sqrt a * B2R chi) <= / 100 * (sqrt a * Rabs (B2R chi))).
    { destruct Ez as [_ [D _]]. apply Rle_trans with (1 := D). apply Rmult_le_compat_r; [apply Rmult_le_pos; lra |]. apply G. lia. }
    assert (M : Rabs (sqrt a * B2R chi) = sqrt a * Rabs (B2R chi)) by (rewrite Rabs_mult, (Rabs_pos_eq (sqrt a)) by lra; reflexivity).
    assert (P : 0 < sqrt a * Rabs (B2R chi)) by (apply Rmult_lt_0_compat; assumption).
    split; [apply Eq |]. split; [exact q0 |]. split; [apply Ez |]. split.
    { intro Z. rewrite Z in Dz. replace (0 - sqrt a * B2R chi) with (- (sqrt a * B2R chi)) in Dz by ring. rewrite Rabs_Ropp, M in Dz. lra. }
    split.
    - assert (B : Rabs (B2R z) <= 101 / 100 * (sqrt a * Rabs (B2R chi))).
      { replace (B2R z) with ((B2R z - sqrt a * B2R chi) + sqrt a * B2R chi) by ring. apply Rle_trans with (1 := Rabs_triang _ _). rewrite M. lra. }
      rewrite <- pow2_abs. apply Rle_trans with ((101 / 100 * (sqrt a * Rabs (B2R chi))) ^ 2); [apply pow_incr; split; [apply Rabs_pos | exact B] |].
      replace ((101 / 100 * (sqrt a * Rabs (B2R chi))) ^ 2) with ((101 / 100) ^ 2 * ((sqrt a * sqrt a) * Rabs (B2R chi) ^ 2)) by ring.
      rewrite QQ, pow2_abs. set (w := a * B2R chi ^ 2) in *. set (e := / IZR (2 ^ 24)) in *. assert (0 < e) by (unfold e; simpl; lra). lra.
    - assert (Eq' : Er32 15 2 (Rabs (sqrt a)) q (sqrt a)) by (rewrite Rabs_pos_eq by lra; exact Eq).
      pose proof (An_div1 L _ _ _ _ _ _ _ _ _ Ez Eq' ltac:(lra) ltac:(lia) ltac:(lia)) as D. change (Num_B32 L) with N in D. rewrite (Rabs_pos_eq (sqrt a)) in D by lra.
      replace (sqrt a * Rabs (B2R chi) / sqrt a) with (Rabs (B2R chi)) in D by (field; lra). replace (sqrt a * B2R chi / sqrt a) with (B2R chi) in D by (field; lra).
      eexists _, _. split; [exact D |]. split; lia.
  Qed.
  Lemma flat_uf : @ufunc0 _ N chi alpha = @n_Z _ N 1 /\ (exists r k, Er32 r k (Rabs (B2R chi)) (@ufunc1 _ N chi alpha) (B2R chi) /\ (r <= 60)%Z /\ (k <= 7)%nat) /\
    (B2R (@ufunc2 _ N chi alpha) = 0 /\ fin32 (@ufunc2 _ N chi alpha)) /\ (B2R (@ufunc3 _ N chi alpha) = 0 /\ fin32 (@ufunc3 _ N chi alpha)).
  Proof using All.
    destruct Ga as [Fa Ia]. assert (Z0 : is_finite (b32_Z 0) = true /\ B2R (b32_Z 0) = 0) by (split; reflexivity). destruct Z0 as [F0 V0].
    destruct B32Uni.one_value as [V1 F1].
    destruct (Rtotal_order (B2R alpha) 0) as [Neg | [Z | Pos]]; [| contradiction |].
    - assert (G1 : @n_gt _ N alpha (@n_Z _ N 0) = false) by (change (Bltb (b32_Z 0) alpha = false); rewrite lt_exact by assumption; rewrite V0; apply Rlt_bool_false; lra).
      assert (G2 : @n_lt _ N alpha (@n_Z _ N 0) = true) by (change (Bltb alpha (b32_Z 0) = true); rewrite lt_exact by assumption; rewrite V0; apply Rlt_bool_true; lra).
      assert (Vn : B2R (@n_neg _ N alpha) = a) by (unfold a; rewrite Rabs_left by lra; apply (f_neg' L alpha Fa)).
      assert (Gn : good32 30 (@n_neg _ N alpha)).
      { split; [apply (f_neg' L alpha Fa) |]. rewrite Vn. unfold a. destruct Ia as [I | I]; [contradiction | right; rewrite Rabs_Rabsolu; exact I]. }
      destruct (arg_ok _ Gn Vn) as [Fq [q0 [Fz [z0 [Bz E1]]]]]. destruct (FL _ Fz z0 Bz) as [_ [C [_ S]]].
      unfold ufunc0, ufunc1, ufunc2, ufunc3, where_. rewrite G1, G2. cbv beta iota.
      change (@n_cosh _ N) with (m_cosh L). change (@n_sinh _ N) with (m_sinh L). rewrite C, S.
      split; [reflexivity |]. split; [exact E1 |]. split.
      + destruct (zero_sub (b32_Z 1) F1) as [D1 D2]. apply zero_div; [exact D2 | exact D1 | rewrite Vn; lra].
      + destruct (zero_sub _ Fz) as [D1 D2]. destruct (zero_div _ alpha D2 D1 Na) as [D3 D4]. apply zero_div; assumption.
    - assert (G1 : @n_gt _ N alpha (@n_Z _ N 0) = true) by (change (Bltb (b32_Z 0) alpha = true); rewrite lt_exact by assumption; rewrite V0; apply Rlt_bool_true; lra).
      assert (Vn : B2R alpha = a) by (unfold a; rewrite Rabs_pos_eq by lra; reflexivity).
      destruct (arg_ok _ Ga Vn) as [Fq [q0 [Fz [z0 [Bz E1]]]]]. destruct (FL _ Fz z0 Bz) as [C [_ [S _]]].
      unfold ufunc0, ufunc1, ufunc2, ufunc3, where_. rewrite G1. cbv beta iota.
      change (@n_cos _ N) with (m_cos L). change (@n_sin _ N) with (m_sin L). rewrite C, S.
      split; [reflexivity |]. split; [exact E1 |]. split.
      + destruct (zero_sub (b32_Z 1) F1) as [D1 D2]. apply zero_div; [exact D2 | exact D1 | exact Na].
      + destruct (zero_sub _ Fz) as [D1 D2]. destruct (zero_div _ alpha D2 D1 Na) as [D3 D4]. apply zero_div; assumption.
  Qed.

  Variables (r0 s0 dt mu : b32).
  Hypotheses (Gr : good32 17 r0) (Pr : 0 < B2R r0) (Gs : good32 17 s0) (Gt : good32 40 dt) (Gm : good32 20 mu) (Pm : 0 < B2R mu).
  Lemma Er_zero (x : b32) : B2R x = 0 /\ fin32 x -> Er32 0 0 0 x 0.
  Proof using. intros [V F]. split; [exact F |]. rewrite V. unfold gam. simpl. rewrite Rminus_0_r, !Rabs_R0. split; [lra |]. split; [lra |]. split; [left; reflexivity | lia]. Qed.
  Lemma flat_smu : Er32 10 2 (sqrt (B2R mu)) (@n_sqrt _ N mu) (sqrt (B2R mu)).
  Proof using Gm Pm.
    pose proof (An_good L 20 mu ltac:(lia) Gm) as E. rewrite Rabs_pos_eq in E by lra.
    pose proof (An_weak L _ (10 + 10) _ 0 _ _ _ _ E (Rle_refl _) ltac:(lia) ltac:(apply (range_mono 20); [lia | apply E]) ltac:(lia)) as E2.
    exact (An_sqrt L 10 0 _ _ E2 Pm ltac:(lia) ltac:(lia)).
  Qed.
  Lemma flat_kep : off 12 (B2R r0 * Rabs (B2R chi) + sqrt (B2R mu) * Rabs (B2R dt)) (@kepler_equ_uni _ N chi alpha r0 s0 dt mu) (B2R r0 * B2R chi - sqrt (B2R mu) * B2R dt).
  Proof using All.
    destruct flat_uf as [_ [[r [k [E1 [Hr Hk]]]] [Z2 Z3]]]. pose proof (Er_r L _ _ _ _ _ E1) as Hr'. apply Er_zero in Z2, Z3.
    pose proof (An_good L 17 r0 ltac:(lia) Gr) as R0. rewrite Rabs_pos_eq in R0 by lra.
    pose proof (An_mul L _ _ _ _ _ _ _ _ _ _ R0 E1 ltac:(lia) ltac:(lia)) as A1.
    pose proof (An_mul L _ _ _ _ _ _ _ _ _ _ (An_good L 17 s0 ltac:(lia) Gs) Z2 ltac:(lia) ltac:(lia)) as A2.
    pose proof (An_add L _ _ _ _ _ _ _ _ _ _ A1 A2 ltac:(lia) ltac:(lia)) as A3.
    pose proof (An_add L _ _ _ _ _ _ _ _ _ _ A3 Z3 ltac:(lia) ltac:(lia)) as A4.
    pose proof (An_mul L _ _ _ _ _ _ _ _ _ _ flat_smu (An_good L 40 dt ltac:(lia) Gt) ltac:(lia) ltac:(lia)) as A5.
    pose proof (An_sub L _ _ _ _ _ _ _ _ _ _ A4 A5 ltac:(lia) ltac:(lia)) as A6.
    apply (An_final L 12 _ _ _ _ _ _ _ A6); [lia | | right; ring | ring].
    match goal with |- INR ?k + 1 <= _ => apply Rle_trans with (INR 11 + 1); [apply Rplus_le_compat_r, le_INR; lia | simpl; lra] end.
  Qed.
  Variables (x v : V3 b32).
  Hypotheses (Gxv : good32v 17 x) (Gvv : good32v 8 v).
  Lemma flat_position : let g := B2R r0 * B2R chi / sqrt (B2R mu) in
    off32v 17 (vnorm (real32 x) + Rabs g * vnorm (real32 v)) (fst (@state_at_chi _ N chi alpha s0 r0 x v mu)) (vplus (real32 x) (smul g (real32 v))).
  Proof using All.
    intro g. destruct flat_uf as [_ [[r [k [E1 [Hr Hk]]]] [Z2 Z3]]]. pose proof (Er_r L _ _ _ _ _ E1) as Hr'. apply Er_zero in Z2. pose proof (sqrt_lt_R0 _ Pm) as Q.
    pose proof (An_good L 17 r0 ltac:(lia) Gr) as R0.
    pose proof (An_div1 L _ _ _ _ _ _ _ _ _ Z2 R0 ltac:(lra) ltac:(lia) ltac:(lia)) as D1.
    pose proof (An_Z L 0 1 ltac:(lia) ltac:(lia) ltac:(lia)) as O. rewrite Rabs_R1 in O.
    pose proof (An_sub L _ _ _ _ _ _ _ _ _ _ O D1 ltac:(lia) ltac:(lia)) as EF.
    rewrite Rabs_pos_eq in R0 by lra.
    pose proof (An_mul L _ _ _ _ _ _ _ _ _ _ R0 E1 ltac:(lia) ltac:(lia)) as A1.
    pose proof (An_mul L _ _ _ _ _ _ _ _ _ _ (An_good L 17 s0 ltac:(lia) Gs) Z2 ltac:(lia) ltac:(lia)) as A2.
    pose proof (An_add L _ _ _ _ _ _ _ _ _ _ A1 A2 ltac:(lia) ltac:(lia)) as A3.
    assert (S0 : Er32 10 2 (Rabs (sqrt (B2R mu))) (@n_sqrt _ N mu) (sqrt (B2R mu))) by (rewrite Rabs_pos_eq by lra; exact flat_smu).
    pose proof (An_div1 L _ _ _ _ _ _ _ _ _ A3 S0 ltac:(lra) ltac:(lia) ltac:(lia)) as EG. rewrite (Rabs_pos_eq (sqrt _)) in EG by lra.
    pose proof (Ev_good L 17 x ltac:(lia) Gxv) as X. pose proof (Ev_good L 8 v ltac:(lia) Gvv) as V.
    pose proof (Ev_scale L _ _ _ _ _ _ _ _ _ _ EF X ltac:(lia) ltac:(lia)) as B1.
    pose proof (Ev_scale L _ _ _ _ _ _ _ _ _ _ EG V ltac:(lia) ltac:(lia)) as B2.
    pose proof (Ev_add L _ _ _ _ _ _ _ _ _ _ B1 B2 ltac:(lia) ltac:(lia)) as B3.
    apply (Ev_final L 17 _ _ _ _ _ _ _ B3); [lia | | |].
    - match goal with |- INR ?k + 1 <= _ => apply Rle_trans with (INR 16 + 1); [apply Rplus_le_compat_r, le_INR; lia | simpl; lra] end.
    - right. assert (Eg : Rabs g = B2R r0 * Rabs (B2R chi) / sqrt (B2R mu)).
      { unfold g. rewrite Rabs_div by lra. rewrite Rabs_mult, (Rabs_pos_eq (B2R r0)), (Rabs_pos_eq (sqrt _)) by lra. reflexivity. }
      rewrite Eg. field. split; [lra |]. apply Rgt_not_eq, Rabs_pos_lt. lra.
    - f_equal; [unfold smul; destruct x as [x0 x1 x2]; unfold real32; cbn [c0 c1 c2]; f_equal; field; lra | f_equal; unfold g; field; lra].
  Qed.
End Flat.

Lemma line_arith (e T g t V X p q : R) : 0 < e <= / 100000 -> 0 <= T -> 0 <= V -> 0 <= X -> Rabs (g - t) <= T + 12 * e * (Rabs g + Rabs t) ->
  forall w, Rabs w <= V -> Rabs (p - (q + g * w)) <= 17 * e * (X + Rabs g * V) -> Rabs (p - (q + t * w)) <= 2 * T * V + 42 * e * (X + Rabs t * V).
Proof.
  intros He HT HV HX D w W P. pose proof (Rabs_pos g) as G0. pose proof (Rabs_pos t) as T0.
  assert (G : Rabs g <= 1001 / 1000 * (Rabs t + T)).
  { assert (Rabs g <= Rabs t + Rabs (g - t)) by (replace g with (t + (g - t)) at 1 by ring; apply Rabs_triang).
    assert (12 * e * (Rabs g + Rabs t) <= 12 / 100000 * (Rabs g + Rabs t)) by (apply Rmult_le_compat_r; lra). lra. }
  replace (p - (q + t * w)) with ((p - (q + g * w)) + (g - t) * w) by ring. apply Rle_trans with (1 := Rabs_triang _ _). rewrite Rabs_mult.
  assert (Rabs (g - t) * Rabs w <= (T + 12 * e * (Rabs g + Rabs t)) * V) by (apply Rmult_le_compat; [apply Rabs_pos | apply Rabs_pos | exact D | exact W]).
  assert (e * (Rabs g * V) <= e * (1001 / 1000 * (Rabs t + T) * V)) by (apply Rmult_le_compat_l; [lra |]; apply Rmult_le_compat_r; lra).
  assert (0 <= e * X) by (apply Rmult_le_pos; lra). assert (0 <= e * (Rabs t * V)) by (apply Rmult_le_pos; [lra | apply Rmult_le_pos; lra]).
  assert (e * (T * V) <= / 100000 * (T * V)) by (apply Rmult_le_compat_r; [apply Rmult_le_pos; lra | lra]). assert (0 <= T * V) by (apply Rmult_le_pos; lra). nra.
Qed.

Lemma straight_line (L : libm) : flat32 L ->
  forall (x v : V3 b32) (mu t : b32), good32v 17 x -> good32v 8 v -> good32 20 mu -> 0 < B2R mu -> good32 40 t ->
  let N := Num_B32 L in let r0 := @vector_norm _ N x in let s0 := @sigma_fn _ N x v mu in let al := @alpha_of _ N r0 (@vector_norm _ N v) mu in
  forall (n : Z) (chi prev : b32), @uni_run _ N t al r0 s0 mu (@default_tol _ N) uni_max_iter = Some (n, chi, prev) -> (n < uni_max_iter)%Z ->
  good32 30 al -> good32 17 r0 -> 0 < B2R r0 -> good32 17 s0 -> good32 12 chi ->
  B2R al <> 0 -> B2R chi <> 0 -> Rabs (B2R al) * B2R chi ^ 2 <= 9 / 10 * / IZR (2 ^ 24) ->
  let b := 2 * (B2R (@default_tol _ N) / sqrt (B2R mu)) * vnorm (real32 v) + 42 * / IZR (2 ^ 24) * (vnorm (real32 x) + Rabs (B2R t) * vnorm (real32 v)) in
  forall (ts : list b32) (i : nat), nth_error ts i = Some t -> exists P Q : V3 b32, nth_error (@kepler _ N ts x v mu) i = Some (P, Q) /\
    Rabs (B2R (c0 P) - (B2R (c0 x) + B2R t * B2R (c0 v))) <= b /\ Rabs (B2R (c1 P) - (B2R (c1 x) + B2R t * B2R (c1 v))) <= b /\
    Rabs (B2R (c2 P) - (B2R (c2 x) + B2R t * B2R (c2 v))) <= b.
Proof.
  intros FL x v mu t Gx Gv Gm Pm Gt N r0 s0 al n chi prev Run Hn Ga Gr Pr Gs Gc Na Nc Sm b ts i Ht.
  pose proof (kepler_row _ N ts i t x v mu n chi prev Ht Run) as Row. fold r0 s0 al in Row.
  set (s := @state_at_chi _ N chi al s0 r0 x v mu) in *. exists (fst s), (snd s). split; [destruct s; exact Row |].
  pose proof (flat_position L FL chi al Ga Gc Na Nc Sm r0 s0 t mu Gr Pr Gs Gt Gm Pm x v Gx Gv) as E. cbv zeta in E. change (Num_B32 L) with N in E. fold s in E.
  pose proof (flat_kep L FL chi al Ga Gc Na Nc Sm r0 s0 t mu Gr Pr Gs Gt Gm Pm) as K.
  pose proof (B32Newton.tol_small L) as Tl. change (B32Newton.NB L) with N in Tl.
  assert (Ft : is_finite (@default_tol _ N) = true) by (vm_compute; reflexivity).
  pose proof (not_exceeds L _ _ _ _ _ K Ft (uni_early L _ _ _ _ _ _ _ _ _ _ Run Hn)) as D.
  set (g := B2R r0 * B2R chi / sqrt (B2R mu)) in *. pose proof (sqrt_lt_R0 _ Pm) as Q. set (T := B2R (@default_tol _ N) / sqrt (B2R mu)) in *.
  assert (T0 : 0 <= T) by (apply Rmult_le_pos; [apply Tl | apply Rlt_le, Rinv_0_lt_compat, Q]).
  assert (G : Rabs (g - B2R t) <= T + 12 * / IZR (2 ^ 24) * (Rabs g + Rabs (B2R t))).
  { apply Rmult_le_reg_l with (sqrt (B2R mu)); [exact Q |].
    assert (Eg : sqrt (B2R mu) * Rabs g = B2R r0 * Rabs (B2R chi)).
    { unfold g. rewrite Rabs_div by lra. rewrite Rabs_mult, (Rabs_pos_eq (B2R r0)), (Rabs_pos_eq (sqrt _)) by lra. field. lra. }
    assert (Ed : sqrt (B2R mu) * Rabs (g - B2R t) = Rabs (B2R r0 * B2R chi - sqrt (B2R mu) * B2R t)).
    { rewrite <- (Rabs_pos_eq (sqrt (B2R mu))) at 1 by lra. rewrite <- Rabs_mult. f_equal. unfold g. field. lra. }
    rewrite Ed. replace (sqrt (B2R mu) * (T + 12 * / IZR (2 ^ 24) * (Rabs g + Rabs (B2R t)))) with (sqrt (B2R mu) * T + 12 * / IZR (2 ^ 24) * (sqrt (B2R mu) * Rabs g + sqrt (B2R mu) * Rabs (B2R t))) by ring.
    rewrite Eg. unfold T. replace (sqrt (B2R mu) * (B2R (@default_tol _ N) / sqrt (B2R mu))) with (B2R (@default_tol _ N)) by (field; lra). exact D. }
  assert (He : 0 < / IZR (2 ^ 24) <= / 100000) by (simpl; lra).
  destruct (comp_le (real32 v)) as [C0 [C1 C2]]. destruct E as [[_ E0] [[_ E1] [_ E2]]].
  split; [| split]; (apply (line_arith (/ IZR (2 ^ 24)) T g _ _ _ _ _ He T0 (vnorm_nonneg _) (vnorm_nonneg _) G); [assumption | assumption]).
Qed.

(** ** The sign of the energy *)
Lemma conic_sign (L : libm) (x v : V3 b32) (mu : b32) : good32v 17 x -> good32v 8 v -> good32 20 mu -> 0 < B2R mu ->
  real32 x <> vzero -> real32 v <> vzero ->
  let E := energy (B2R mu) (real32 x) (real32 v) in let K := dot (real32 v) (real32 v) / 2 + B2R mu / vnorm (real32 x) in
  16 * / IZR (2 ^ 24) * K < Rabs E ->
  let N := Num_B32 L in let al := @alpha_of _ N (@vector_norm _ N x) (@vector_norm _ N v) mu in
  is_finite al = true /\ (E < 0 -> 0 < B2R al) /\ (0 < E -> B2R al < 0).
Proof.
  intros Gx Gv Gm Pm Nx Nv E K M N al. destruct (B32Back.alpha_off L x v mu Gx Gv Gm Pm Nx Nv) as [F O]. fold N al in F, O.
  pose proof (vnorm_pos _ Nx) as X.
  assert (V2 : vnorm (real32 v) ^ 2 = dot (real32 v) (real32 v)) by (unfold vnorm; apply pow2_sqrt; unfold dot; nra).
  rewrite V2 in O. set (m := B2R mu) in *. set (r := vnorm (real32 x)) in *. set (d := dot (real32 v) (real32 v)) in *.
  assert (E1 : 2 / r - d / m = - (2 / m * E)) by (unfold E, energy; fold r d; field; lra).
  assert (E2 : 2 / r + d / m = 2 / m * K) by (unfold K; field; lra).
  rewrite E1, E2 in O. assert (Q : 0 < 2 / m) by (apply Rdiv_lt_0_compat; lra).
  assert (M2 : 16 * / IZR (2 ^ 24) * (2 / m * K) < 2 / m * Rabs E).
  { replace (16 * / IZR (2 ^ 24) * (2 / m * K)) with (2 / m * (16 * / IZR (2 ^ 24) * K)) by ring. apply Rmult_lt_compat_l; assumption. }
  split; [exact F |]. apply Rabs_le_inv in O. split; intro S.
  - rewrite Rabs_left in M2 by exact S. assert (W : 2 / m * - E = - (2 / m * E)) by ring. rewrite W in M2. clear W. set (w := 2 / m * E) in *. clearbody w. lra.
  - rewrite Rabs_pos_eq in M2 by (apply Rlt_le; exact S). set (w := 2 / m * E) in *. clearbody w. lra.
Qed.
