(** * B32Kuni: the universal Kepler solver on ellipses in single precision (proofs for C113) *)
From Coq Require Import ZArith Reals Lra Lia Psatz Bool List.
From Coquelicot Require Import Coquelicot.
From Flocq Require Import Core IEEE754.BinarySingleNaN.
From Verif Require Import Num NumB32 NumR Spec SpecFl SpecFl32 SpecFlV OrbIntegrals Uniformulas UFacts StateTrans KepEqu LoopFacts UfReal UniFloat EccNear B32Lib B32Facts B32Acc B32Rel B32Newton.
From Verif Require Import PropKepler.
From Verif Require RLib B32Geo B32Stop B32Back.
Local Open Scope R_scope.

Definition ulo : R := / IZR (2 ^ 60).
Definition ubig : R := IZR (2 ^ 60).
Lemma rnd_lo (x B : R) : Rabs x <= B -> ulo <= B -> Rabs (rnd x - x) <= un * B.
Proof.
  intros H1 H2. apply Rle_trans with (1 := rnd_abs x).
  assert (T : / IZR (2 ^ 149) <= / 100 * eps * ulo) by (unfold eps, ulo; simpl; lra).
  assert (0 < eps) by (unfold eps; lra). unfold un.
  assert (eps * Rabs x <= eps * B) by (apply Rmult_le_compat_l; lra).
  assert (/ 100 * eps * ulo <= / 100 * eps * B) by (apply Rmult_le_compat_l; lra). lra.
Qed.
Lemma ubig_ok (B : R) : B <= ubig -> B <= IZR (2 ^ 127).
Proof. intro H. apply Rle_trans with (1 := H). apply IZR_le. apply Z.leb_le. vm_compute. reflexivity. Qed.
Lemma uni_ops (L : libm) : let N := Num_B32 L in
  let fin := fun x : b32 => is_finite x = true in
  (forall x y B, fin x -> fin y -> ulo <= B <= ubig -> Rabs (B2R x - B2R y) <= B -> fin (n_sub x y) /\ Rabs (B2R (n_sub x y) - (B2R x - B2R y)) <= un * B) /\
  (forall x y B, fin x -> fin y -> ulo <= B <= ubig -> Rabs (B2R x * B2R y) <= B -> fin (n_mul x y) /\ Rabs (B2R (n_mul x y) - (B2R x * B2R y)) <= un * B) /\
  (forall x y B, fin x -> B2R y <> 0 -> ulo <= B <= ubig -> Rabs (B2R x / B2R y) <= B -> fin (n_div x y) /\ Rabs (B2R (n_div x y) - (B2R x / B2R y)) <= un * B) /\
  (forall x B, fin x -> 0 < B2R x -> ulo <= B <= ubig -> sqrt (B2R x) <= B -> fin (n_sqrt x) /\ Rabs (B2R (n_sqrt x) - sqrt (B2R x)) <= un * B) /\
  (forall x, fin x -> fin (n_abs x) /\ B2R (n_abs x) = Rabs (B2R x)) /\
  (forall x t, fin x -> fin t -> exceeds x t = false -> Rabs (B2R x) <= B2R t) /\
  (forall x t, fin x -> fin t -> Rabs (B2R x) <= B2R t -> exceeds x t = false).
Proof.
  intros N fin. split; [|split; [|split; [|split; [|split; [|split]]]]].
  - intros x y B Fx Fy [B1 B2] HB. destruct (sub_exact x y Fx Fy (Rle_trans _ _ _ HB (ubig_ok _ B2))) as [E Fn]. split; [exact Fn|].
    change (n_sub x y) with (b32_sub x y). rewrite E. apply rnd_lo; assumption.
  - intros x y B Fx Fy [B1 B2] HB. destruct (mul_exact x y Fx Fy (Rle_trans _ _ _ HB (ubig_ok _ B2))) as [E Fn]. split; [exact Fn|].
    change (n_mul x y) with (b32_mul x y). rewrite E. apply rnd_lo; assumption.
  - intros x y B Fx Fy [B1 B2] HB. destruct (div_exact x y Fx Fy (Rle_trans _ _ _ HB (ubig_ok _ B2))) as [E Fn]. split; [exact Fn|].
    change (n_div x y) with (b32_div x y). rewrite E. apply rnd_lo; assumption.
  - intros x B Fx Px [B1 B2] HB. destruct (sqrt_value x Fx Px) as [E Fn]. split; [exact Fn|].
    change (n_sqrt x) with (b32_sqrt x). rewrite E. apply rnd_lo; [rewrite Rabs_pos_eq by apply sqrt_pos; assumption|assumption].
  - intros x Fx. change (n_abs x) with (Babs x). unfold fin. rewrite is_finite_Babs, B2R_Babs. split; [exact Fx|reflexivity].
  - intros x t Fx Ft H. change (Bltb t (Babs x) = false) in H. rewrite lt_exact in H by (rewrite ?is_finite_Babs; assumption).
    rewrite B2R_Babs in H. destruct (Rlt_bool_spec (B2R t) (Rabs (B2R x))) as [Q|Q]; [discriminate H|exact Q].
  - intros x t Fx Ft H. change (Bltb t (Babs x) = false). rewrite lt_exact by (rewrite ?is_finite_Babs; assumption). rewrite B2R_Babs. apply Rlt_bool_false. exact H.
Qed.

Lemma uni_both (L : libm) (dt al r0 s0 mu tol : b32) (c : nat) (max_iter : Z) : let N := Num_B32 L in
  (c <= 8)%nat -> trig32 L c (2 * IZR (2 ^ 10)) (2 * 10) ->
  is_finite al = true -> / IZR (2 ^ 14) <= B2R al <= IZR (2 ^ 6) -> good32 17 r0 -> 0 < B2R r0 -> good32 17 s0 -> good32 40 dt -> good32 20 mu -> 0 < B2R mu ->
  is_finite tol = true -> 0 <= B2R tol -> (20 <= max_iter)%Z ->
  (1 - B2R al * B2R r0) ^ 2 + B2R al * B2R s0 ^ 2 <= 9 / 25 ->
  let q := sqrt (B2R al) in let m := q ^ 3 * (sqrt (B2R mu) * B2R dt) in
  / IZR (2 ^ 6) <= Rabs m <= IZR (2 ^ 4) ->
  let chi := @solve_kepler_uni _ N dt al r0 s0 mu tol max_iter in
  let eqn x := B2R r0 * universal 1 x (B2R al) + B2R s0 * universal 2 x (B2R al) + universal 3 x (B2R al) = sqrt (B2R mu) * B2R dt in
  is_finite chi = true /\
  exists x, eqn x /\ (forall y, eqn y -> y = x) /\
    q * Rabs (B2R chi - x) <= 5 / 2 * (q ^ 3 * B2R tol) + 205 * ((INR c + 16) * / IZR (2 ^ 24) * (1 + Rabs m)) /\
    (good32 12 chi /\ q * Rabs (B2R chi) <= Rabs m + 241 / 100 /\ q * Rabs (B2R chi) <= IZR (2 ^ 10)) /\
    q ^ 3 * Rabs (B2R r0 * universal 1 (B2R chi) (B2R al) + B2R s0 * universal 2 (B2R chi) (B2R al) + universal 3 (B2R chi) (B2R al) - sqrt (B2R mu) * B2R dt)
      <= q ^ 3 * B2R tol + 330 * ((INR c + 16) * / IZR (2 ^ 24) * (1 + Rabs m)) /\
    (350 * ((INR c + 16) * / IZR (2 ^ 24) * (1 + Rabs m)) <= q ^ 3 * B2R tol -> (20 < max_iter)%Z ->
      exists k prev, @uni_run _ N dt al r0 s0 mu tol max_iter = Some (k, chi, prev) /\ (0 <= k <= 20)%Z) /\
    (2 / 5 <= q ^ 2 * (B2R r0 * universal 0 (B2R chi) (B2R al) + B2R s0 * universal 1 (B2R chi) (B2R al) + universal 2 (B2R chi) (B2R al)) <= 8 / 5).
Proof.
  intros N Hc Trig Fa Ha Gr Pr Gs Gt Gm Pm Ft T0 Hi Hecc q m Hm chi eqn.
  destruct (uni_ops L) as (O2 & O3 & O4 & O5 & O6 & O7 & O8).
  assert (a0 : 0 < B2R al) by (assert (0 < / IZR (2 ^ 14)) by (apply Rinv_0_lt_compat, IZR_lt; reflexivity); lra).
  assert (Q0 : 0 < q) by (apply sqrt_lt_R0, a0). assert (QQ : q * q = B2R al) by (apply sqrt_sqrt; lra).
  assert (Q1 : / IZR (2 ^ 7) <= q).
  { apply Rnot_lt_le. intro K. assert (q * q < / IZR (2 ^ 7) * / IZR (2 ^ 7)) by (apply Rmult_le_0_lt_compat; lra).
    assert (/ IZR (2 ^ 7) * / IZR (2 ^ 7) = / IZR (2 ^ 14)) by (rewrite <- Rinv_mult, <- mult_IZR; reflexivity). lra. }
  assert (Q2 : q <= IZR (2 ^ 3)).
  { apply Rnot_lt_le. intro K. assert (IZR (2 ^ 3) * IZR (2 ^ 3) < q * q) by (apply Rmult_le_0_lt_compat; try (apply IZR_le; discriminate); lra).
    assert (IZR (2 ^ 3) * IZR (2 ^ 3) = IZR (2 ^ 6)) by (rewrite <- mult_IZR; reflexivity). lra. }
  assert (W : / IZR (2 ^ 10) <= sqrt (B2R mu) <= IZR (2 ^ 10)).
  { destruct Gm as [_ [Z|Gm]]; [lra|]. rewrite Rabs_pos_eq in Gm by lra. set (w := sqrt (B2R mu)). assert (w0 : 0 < w) by (apply sqrt_lt_R0, Pm).
    assert (ww : w * w = B2R mu) by (apply sqrt_sqrt; lra). split; apply Rnot_lt_le; intro K.
    - assert (w * w < / IZR (2 ^ 10) * / IZR (2 ^ 10)) by (apply Rmult_le_0_lt_compat; lra).
      assert (/ IZR (2 ^ 10) * / IZR (2 ^ 10) = / IZR (2 ^ 20)) by (rewrite <- Rinv_mult, <- mult_IZR; reflexivity). lra.
    - assert (IZR (2 ^ 10) * IZR (2 ^ 10) < w * w) by (apply Rmult_le_0_lt_compat; try (apply IZR_le; discriminate); lra).
      assert (IZR (2 ^ 10) * IZR (2 ^ 10) = IZR (2 ^ 20)) by (rewrite <- mult_IZR; reflexivity). lra. }
  set (w := sqrt (B2R mu)) in *. set (a := B2R al) in *.
  assert (iq : / IZR (2 ^ 3) <= / q <= IZR (2 ^ 7)).
  { split; [apply Rinv_le_contravar; lra|]. rewrite <- (Rinv_inv (IZR (2 ^ 7))). apply Rinv_le_contravar; [apply Rinv_0_lt_compat, IZR_lt; reflexivity|exact Q1]. }
  assert (wa : / IZR (2 ^ 10) * / IZR (2 ^ 14) <= w * a <= IZR (2 ^ 10) * IZR (2 ^ 6)).
  { assert (w0 : 0 < w) by (apply sqrt_lt_R0, Pm). split; apply Rmult_le_compat; first [lra | left; apply Rinv_0_lt_compat, IZR_lt; reflexivity]. }
  assert (am : Rabs m = q * (w * a * Rabs (B2R dt))).
  { unfold m. rewrite !Rabs_mult, (Rabs_pos_eq (q ^ 3)) by (apply pow_le; lra). rewrite (Rabs_pos_eq w) by (apply sqrt_pos). rewrite <- QQ. ring. }
  assert (wat : w * a * Rabs (B2R dt) = Rabs m * / q) by (rewrite am; field; lra).
  assert (wat2 : / IZR (2 ^ 6) * / IZR (2 ^ 3) <= w * a * Rabs (B2R dt) <= IZR (2 ^ 4) * IZR (2 ^ 7)).
  { rewrite wat. assert (0 < / q) by (apply Rinv_0_lt_compat; lra). split; apply Rmult_le_compat; first [lra | left; apply Rinv_0_lt_compat, IZR_lt; reflexivity | apply Rabs_pos]. }
  assert (LL1 : ulo <= w <= ubig) by (unfold ulo, ubig; simpl in W |- *; lra).
  assert (LL2 : ulo <= 2 * (w * a) <= ubig) by (unfold ulo, ubig; simpl in wa |- *; lra).
  assert (LL3 : ulo <= 2 * (w * a * Rabs (B2R dt)) <= ubig) by (unfold ulo, ubig; simpl in wat2 |- *; lra).
  assert (LL4 : ulo <= 3 / q <= ubig) by (unfold ulo, ubig, Rdiv; simpl in iq |- *; lra).
  assert (LL5 : ulo <= (1 + Rabs m + 5) / q <= ubig).
  { pose proof (Rabs_pos m). assert (1 * / q <= (1 + Rabs m + 5) * / q) by (apply Rmult_le_compat_r; lra).
    assert ((1 + Rabs m + 5) * / q <= (IZR (2 ^ 4) + 6) * / q) by (apply Rmult_le_compat_r; lra).
    unfold ulo, ubig, Rdiv. simpl in iq, H0, H1 |- *. lra. }
  destruct (phase a (B2R r0) (B2R s0) a0 Hecc) as (e & ph & He & HA & HB). fold q in HB.
  destruct (root6 a (w * B2R dt) e ph He) as [X HX]. fold q in HX. fold m in HX.
  destruct (start6 e ph m X He HX) as [S1 S2].
  assert (mX : Rabs m <= 8 / 5 * Rabs X) by (replace m with (m - X + X) by ring; apply Rle_trans with (1 := Rabs_triang _ _); lra).
  set (kap := (INR c + 16) * / IZR (2 ^ 24)).
  assert (IC : 0 <= INR c <= 8) by (split; [apply pos_INR|apply le_INR in Hc; simpl in Hc; lra]).
  assert (eu : / IZR (2 ^ 24) = eps) by (unfold eps; simpl; lra).
  assert (KP : 16 * eps <= kap <= 24 * eps) by (unfold kap; rewrite eu; assert (0 < eps) by (unfold eps; lra); split; apply Rmult_le_compat_r; lra).
  assert (Hk : 15 * un <= kap) by (unfold un; assert (0 < eps) by (unfold eps; lra); lra).
  set (T := 1 + Rabs m) in *. pose proof (Rabs_pos m) as M0.
  assert (KT : kap * T <= 24 * eps * T /\ 16 * eps <= kap * T).
  { split; [apply Rmult_le_compat_r; unfold T; lra|]. apply Rle_trans with (kap * 1); [lra|]. apply Rmult_le_compat_l; unfold T; unfold eps in KP; lra. }
  assert (HD : 190 * (kap * T) <= / 200) by (unfold T, eps in *; simpl in Hm; lra).
  assert (HDX : 190 * (kap * T) <= / 25 * Rabs X) by (unfold T, eps in *; simpl in Hm; lra).
  assert (Hgood : forall x : b32, is_finite x = true -> near6 X (q * B2R x) -> q * Rabs (B2R x) = Rabs (q * B2R x) /\ Rabs (q * B2R x) <= Rabs m + 241 / 100 /\ good32 12 x).
  { intros x Fx [N1 N2]. assert (Ax : q * Rabs (B2R x) = Rabs (q * B2R x)) by (rewrite Rabs_mult, (Rabs_pos_eq q) by lra; reflexivity).
    assert (B1 : Rabs (q * B2R x) <= Rabs m + 241 / 100).
    { replace (q * B2R x) with ((q * B2R x - X) + (- (m - X)) + m) by ring. apply Rle_trans with (1 := Rabs_triang _ _).
      apply Rle_trans with (Rabs (q * B2R x - X) + Rabs (- (m - X)) + Rabs m); [apply Rplus_le_compat_r, Rabs_triang|]. rewrite Rabs_Ropp. lra. }
    assert (B2 : 24 / 100 * Rabs m <= Rabs (q * B2R x)).
    { assert (Rabs X <= Rabs (q * B2R x) + Rabs (q * B2R x - X)) by (replace X with (q * B2R x + - (q * B2R x - X)) at 1 by ring; apply Rle_trans with (1 := Rabs_triang _ _); rewrite Rabs_Ropp; lra). lra. }
    split; [exact Ax|]. split; [exact B1|].
    { split; [exact Fx|]. right. assert (xq : Rabs (B2R x) = Rabs (q * B2R x) * / q) by (rewrite <- Ax; field; lra). rewrite xq. split.
      - apply Rle_trans with (24 / 100 * / IZR (2 ^ 6) * / IZR (2 ^ 3)); [simpl; lra|].
        assert (0 < / IZR (2 ^ 6)) by (apply Rinv_0_lt_compat, IZR_lt; reflexivity). apply Rmult_le_compat; first [lra | left; apply Rinv_0_lt_compat, IZR_lt; reflexivity].
      - apply Rle_trans with ((IZR (2 ^ 4) + 241 / 100) * IZR (2 ^ 7)); [|simpl; lra]. apply Rmult_le_compat; first [lra | apply Rabs_pos | left; apply Rinv_0_lt_compat; lra]. } }
  assert (Hkep : forall x, is_finite x = true -> near6 X (q * B2R x) ->
    (is_finite (@kepler_equ_uni _ N x al r0 s0 dt mu) = true /\ Rabs (q ^ 3 * B2R (@kepler_equ_uni _ N x al r0 s0 dt mu) - (q * B2R x - e * sin (q * B2R x + ph) + e * sin ph - m)) <= 23 * (kap * T)) /\
    (is_finite (@dchi _ N x al r0 s0) = true /\ Rabs (q ^ 2 * B2R (@dchi _ N x al r0 s0) - (1 - e * cos (q * B2R x + ph))) <= 22 * (kap * T))).
  { intros x Fx Nx. destruct (Hgood x Fx Nx) as (Ax & B1 & Gx).
    assert (Ga : good32 17 al).
    { split; [exact Fa|]. right. fold a. rewrite Rabs_pos_eq by lra. simpl in Ha |- *. lra. }
    assert (Th : sqrt (Rabs a) * Rabs (B2R x) <= IZR (2 ^ 10)) by (rewrite (Rabs_pos_eq a) by lra; fold q; rewrite Ax; simpl in Hm |- *; lra).
    destruct (B32Stop.kep_off L x al c Hc Ga Gx Trig (fun _ => Th) ltac:(fold a; lra) r0 s0 dt mu Gr Pr Gs Gt Gm Pm) as [[FK EK] [FD ED]].
    fold a w in EK, ED. fold N in FK, FD, EK, ED.
    assert (B3 : q * Rabs (B2R x) <= Rabs m + 241 / 100) by lra.
    pose proof (size_res a (B2R r0) (B2R s0) (w * B2R dt) (B2R x) a0 Pr Hecc B3) as SR. pose proof (size_rad a (B2R r0) (B2R s0) (w * B2R dt) (B2R x) a0 Pr Hecc B3) as SD.
    fold q in SR, SD. fold m T in SR, SD. rewrite Rabs_mult, (Rabs_pos_eq w) in SR by apply sqrt_pos.
    pose proof (scale_res a (B2R r0) (B2R s0) (w * B2R dt) a0 e ph HA HB (B2R x)) as CR. pose proof (scale_rad a (B2R r0) (B2R s0) a0 e ph HA HB (B2R x)) as CD.
    fold q in CR, CD. fold m in CR. rewrite <- CR, <- CD, <- !Rmult_minus_distr_l, !Rabs_mult, (Rabs_pos_eq (q ^ 3)), (Rabs_pos_eq (q ^ 2)) by (apply pow_le; lra).
    assert (k0 : 0 < kap) by (unfold eps in KP; lra).
    split; (split; [assumption|]).
    - apply Rle_trans with (q ^ 3 * (kap * (B2R r0 * uf_size 1 (B2R x) a + Rabs (B2R s0) * uf_size 2 (B2R x) a + uf_size 3 (B2R x) a + w * Rabs (B2R dt)))).
      + apply Rmult_le_compat_l; [apply pow_le; lra|exact EK].
      + replace (23 * (kap * T)) with (kap * (23 * T)) by ring. rewrite <- Rmult_assoc, (Rmult_comm (q ^ 3)), Rmult_assoc. apply Rmult_le_compat_l; lra.
    - set (sz := B2R r0 * uf_size 0 (B2R x) a + Rabs (B2R s0) * uf_size 1 (B2R x) a + uf_size 2 (B2R x) a) in *.
      assert (sz0 : 0 <= sz).
      { assert (U : forall k, 0 <= uf_size k (B2R x) a) by (intro k; rewrite uf_scaled by exact a0; fold q; apply Rmult_le_pos; [pose proof (Rabs_pos (q * B2R x)); lra|left; apply Rinv_0_lt_compat, pow_lt; lra]).
        pose proof (U 0%nat). pose proof (U 1%nat). pose proof (U 2%nat). pose proof (Rabs_pos (B2R s0)). unfold sz. assert (0 <= B2R r0 * uf_size 0 (B2R x) a) by (apply Rmult_le_pos; lra). assert (0 <= Rabs (B2R s0) * uf_size 1 (B2R x) a) by (apply Rmult_le_pos; lra). lra. }
      apply Rle_trans with (q ^ 2 * (kap * sz)).
      + apply Rmult_le_compat_l; [apply pow_le; lra|]. apply Rle_trans with (1 := ED). apply Rmult_le_compat_r; [exact sz0|]. unfold kap. apply Rmult_le_compat_r; [|lra]. left. apply Rinv_0_lt_compat, IZR_lt. reflexivity.
      + replace (22 * (kap * T)) with (kap * (22 * T)) by ring. rewrite <- Rmult_assoc, (Rmult_comm (q ^ 2)), Rmult_assoc. apply Rmult_le_compat_l; lra. }
  destruct Gt as [Fdt _]. destruct Gm as [Fmu _]. assert (Hk' : / 10 ^ 19 <= kap) by (unfold eps in KP; simpl; lra).
  destruct (UniFloat.solver6 b32 N B2R (fun x => is_finite x = true) un ulo ubig ltac:(unfold un, eps; lra) O2 O3 O4 O5 O6 O7
    dt al r0 s0 mu Fdt Fa Fmu a0 Pm LL1 LL2 LL3 LL4 LL5 e ph X kap He HX Hk Hk' HD HDX Hkep tol max_iter Ft T0 Hi) as (FX & NX & GX & BX).
  split; [exact FX|]. exists (X / q). fold a q w m in BX, GX. change (solve_kepler_uni dt al r0 s0 mu tol max_iter) with chi in BX, GX.
  assert (CR : forall y, eqn y <-> q * y - e * sin (q * y + ph) + e * sin ph - m = 0).
  { intro y. pose proof (scale_res a (B2R r0) (B2R s0) (w * B2R dt) a0 e ph HA HB y) as CR. fold q in CR. fold m in CR. rewrite <- CR. unfold eqn.
    assert (0 < q ^ 3) by (apply pow_lt; lra). split; intro E; [rewrite E; ring|]. apply Rmult_integral in E. lra. }
  assert (qX : q * (X / q) = X) by (field; lra).
  split; [apply CR; rewrite qX; exact HX|]. split; [|split; [|split; [|split; [|split]]]].
  - intros y Hy. apply CR in Hy. pose proof (proj1 (gap6 e ph m X He HX (q * y))) as GP. cbv beta in GP. rewrite Hy, Rabs_R0 in GP.
    assert (Z : q * y - X = 0). { destruct (Req_dec (q * y - X) 0) as [Z|Z]; [exact Z|]. pose proof (Rabs_pos_lt _ Z). lra. }
    apply Rmult_eq_reg_l with q; [lra|lra].
  - rewrite <- (Rabs_pos_eq q) at 1 by lra. rewrite <- Rabs_mult, Rmult_minus_distr_l, qX. apply Rle_trans with (1 := BX). fold T.
    assert (/ 10 ^ 19 <= kap * T) by (unfold eps in KT; simpl; lra). lra.
  - destruct (Hgood chi FX NX) as (Ax & B1 & Gx). split; [exact Gx|]. rewrite Ax. split; [exact B1|]. simpl in Hm |- *. lra.
  - pose proof (scale_res a (B2R r0) (B2R s0) (w * B2R dt) a0 e ph HA HB (B2R chi)) as CX. fold q in CX. fold m in CX. rewrite <- CX in GX. fold a.
    rewrite Rabs_mult, (Rabs_pos_eq (q ^ 3)) in GX by (apply pow_le; lra). exact GX.
  - intros HT H20. exact (UniFloat.stops6 b32 N B2R (fun x => is_finite x = true) un ulo ubig ltac:(unfold un, eps; lra) O2 O3 O4 O5 O6
      dt al r0 s0 mu Fdt Fa Fmu a0 Pm LL1 LL2 LL3 LL4 LL5 e ph X kap He HX Hk Hk' HD HDX Hkep O8 tol max_iter Ft H20 HT).
  - pose proof (scale_rad a (B2R r0) (B2R s0) a0 e ph HA HB (B2R chi)) as CD. fold q in CD. fold a. rewrite CD. exact (slope6 e ph He (q * B2R chi)).
Qed.

Lemma uni_float (L : libm) (dt al r0 s0 mu tol : b32) (c : nat) (max_iter : Z) : let N := Num_B32 L in
  (c <= 8)%nat -> trig32 L c (2 * IZR (2 ^ 10)) (2 * 10) ->
  is_finite al = true -> / IZR (2 ^ 14) <= B2R al <= IZR (2 ^ 6) -> good32 17 r0 -> 0 < B2R r0 -> good32 17 s0 -> good32 40 dt -> good32 20 mu -> 0 < B2R mu ->
  is_finite tol = true -> 0 <= B2R tol -> (20 <= max_iter)%Z ->
  (1 - B2R al * B2R r0) ^ 2 + B2R al * B2R s0 ^ 2 <= 9 / 25 ->
  let q := sqrt (B2R al) in let m := q ^ 3 * (sqrt (B2R mu) * B2R dt) in
  / IZR (2 ^ 6) <= Rabs m <= IZR (2 ^ 4) ->
  let chi := @solve_kepler_uni _ N dt al r0 s0 mu tol max_iter in
  let eqn x := B2R r0 * universal 1 x (B2R al) + B2R s0 * universal 2 x (B2R al) + universal 3 x (B2R al) = sqrt (B2R mu) * B2R dt in
  is_finite chi = true /\
  exists x, eqn x /\ (forall y, eqn y -> y = x) /\
    q * Rabs (B2R chi - x) <= 5 / 2 * (q ^ 3 * B2R tol) + 205 * ((INR c + 16) * / IZR (2 ^ 24) * (1 + Rabs m)).
Proof.
  intros N Hc Trig Fa Ha Gr Pr Gs Gt Gm Pm Ft T0 Hi Hecc q m Hm chi eqn.
  destruct (uni_both L dt al r0 s0 mu tol c max_iter Hc Trig Fa Ha Gr Pr Gs Gt Gm Pm Ft T0 Hi Hecc Hm) as (A & x & B1 & B2 & B3 & _).
  split; [exact A|]. exists x. split; [exact B1|]. split; [exact B2|exact B3].
Qed.
Lemma uni_stops (L : libm) (dt al r0 s0 mu tol : b32) (c : nat) (max_iter : Z) : let N := Num_B32 L in
  (c <= 8)%nat -> trig32 L c (2 * IZR (2 ^ 10)) (2 * 10) ->
  is_finite al = true -> / IZR (2 ^ 14) <= B2R al <= IZR (2 ^ 6) -> good32 17 r0 -> 0 < B2R r0 -> good32 17 s0 -> good32 40 dt -> good32 20 mu -> 0 < B2R mu ->
  is_finite tol = true -> 0 <= B2R tol -> (20 <= max_iter)%Z ->
  (1 - B2R al * B2R r0) ^ 2 + B2R al * B2R s0 ^ 2 <= 9 / 25 ->
  let q := sqrt (B2R al) in let m := q ^ 3 * (sqrt (B2R mu) * B2R dt) in
  / IZR (2 ^ 6) <= Rabs m <= IZR (2 ^ 4) ->
  350 * ((INR c + 16) * / IZR (2 ^ 24) * (1 + Rabs m)) <= q ^ 3 * B2R tol -> (20 < max_iter)%Z ->
  exists (k : Z) (chi prev : b32), @uni_run _ N dt al r0 s0 mu tol max_iter = Some (k, chi, prev) /\ (0 <= k <= 20)%Z.
Proof.
  intros N Hc Trig Fa Ha Gr Pr Gs Gt Gm Pm Ft T0 Hi Hecc q m Hm HT H20.
  destruct (uni_both L dt al r0 s0 mu tol c max_iter Hc Trig Fa Ha Gr Pr Gs Gt Gm Pm Ft T0 Hi Hecc Hm) as (_ & x & _ & _ & _ & _ & _ & B & _).
  destruct (B HT H20) as (k & prev & R & K). exists k. do 2 eexists. split; [exact R|exact K].
Qed.

(** ** The propagator *)
Lemma off_wide (C m m' : R) (g : b32) (v : R) : 0 <= C -> m <= m' -> off C m g v -> off C m' g v.
Proof.
  intros HC Hm [A B]. split; [exact A|]. apply Rle_trans with (1 := B). apply Rmult_le_compat_l; [|exact Hm].
  apply Rmult_le_pos; [exact HC|]. left. apply Rinv_0_lt_compat, IZR_lt. reflexivity.
Qed.
Lemma offv_wide (C m m' : R) (g : V3 b32) (v : vec) : 0 <= C -> m <= m' -> off32v C m g v -> off32v C m' g v.
Proof. intros HC Hm (A & B & D). split; [|split]; apply off_wide with (m := m); assumption. Qed.

Lemma kepler_ellipse (L : libm) (c : nat) : (c <= 8)%nat -> trig32 L c (2 * IZR (2 ^ 10)) (2 * 10) ->
  forall (x v : V3 b32) (mu t : b32), good32v 17 x -> good32v 8 v -> good32 20 mu -> 0 < B2R mu -> good32 40 t ->
  let X := vnorm (real32 x) in let V := vnorm (real32 v) in let H := vnorm (cross (real32 x) (real32 v)) in
  50 * / IZR (2 ^ 24) * (2 * B2R mu / X + V ^ 2) * X ^ 2 < H ^ 2 ->
  let N := Num_B32 L in let r0 := @vector_norm _ N x in let s0 := @sigma_fn _ N x v mu in let al := @alpha_of _ N r0 (@vector_norm _ N v) mu in
  is_finite al = true -> / IZR (2 ^ 14) <= B2R al <= IZR (2 ^ 6) -> good32 17 r0 -> good32 17 s0 ->
  (1 - B2R al * B2R r0) ^ 2 + B2R al * B2R s0 ^ 2 <= 9 / 25 ->
  let q := sqrt (B2R al) in let m := q ^ 3 * (sqrt (B2R mu) * B2R t) in
  / IZR (2 ^ 6) <= Rabs m <= IZR (2 ^ 4) ->
  let T := 1 + Rabs m in let S k := 7 * T / q ^ k in let W := (2 * B2R mu / X + V ^ 2) * X / H in
  exists (t' : R) (x' v' p w : vec), flows_to (B2R mu) t' (x', v') (p, w) /\ 2 / 5 <= B2R al * vnorm p <= 8 / 5 /\
    sqrt (B2R mu) * Rabs (t' - B2R t) <= B2R (@default_tol _ N) + 330 * ((INR c + 16) * / IZR (2 ^ 24) * T) / q ^ 3 /\
    vnorm (vminus x' (real32 x)) <= 4 * / IZR (2 ^ 24) * X /\
    vnorm (vminus v' (real32 v)) <= / IZR (2 ^ 24) * (13 * V + 50 * W) /\
    forall (ts : list b32) (i : nat), nth_error ts i = Some t -> exists P Q : V3 b32, nth_error (@kepler _ N ts x v mu) i = Some (P, Q) /\
      off32v (INR c + 50) ((1 + S 2%nat / B2R r0) * X + (B2R r0 * S 1%nat + Rabs (B2R s0) * S 2%nat) / sqrt (B2R mu) * (V + W)) P p /\
      off32v (2 * INR c + 50) (sqrt (B2R mu) * (140 * T * B2R al) * S 1%nat / B2R r0 * X + (1 + S 2%nat * (140 * T * B2R al)) * (V + W)) Q w.
Proof.
  intros Hc Trig x v mu t Gx Gv Gm Pm Gt X V H Wide N r0 s0 al Fa Ha Gr Gs Hecc q m Hm T S W.
  assert (a0 : 0 < B2R al) by (assert (0 < / IZR (2 ^ 14)) by (apply Rinv_0_lt_compat, IZR_lt; reflexivity); lra).
  assert (Q0 : 0 < q) by (apply sqrt_lt_R0, a0). assert (QQ : q * q = B2R al) by (apply sqrt_sqrt; lra).
  assert (Pr : 0 < B2R r0).
  { assert (0 <= B2R al * B2R s0 ^ 2) by (apply Rmult_le_pos; [lra|apply pow2_ge_0]). assert (2 / 5 <= B2R al * B2R r0) by nra.
    apply Rmult_lt_reg_l with (B2R al); lra. }
  assert (Tf : is_finite (@default_tol _ N) = true /\ 0 <= B2R (@default_tol _ N)) by (split; apply (tol_small L)). destruct Tf as [Tf T0].
  assert (Ha' : / IZR (2 ^ 14) <= B2R al <= IZR (2 ^ 6)) by (simpl in Ha |- *; lra).
  destruct (uni_both L t al r0 s0 mu (@default_tol _ N) c uni_max_iter Hc Trig Fa Ha' Gr Pr Gs Gt Gm Pm Tf T0 ltac:(unfold uni_max_iter; lia) Hecc Hm)
    as (_ & xs & _ & _ & _ & (Gc & B1 & B2) & RS & _ & RD). fold N q m in Gc, B1, B2, RS, RD.
  set (chi := solve_kepler_uni t al r0 s0 mu default_tol uni_max_iter) in *.
  assert (Run : exists n prev, @uni_run _ N t al r0 s0 mu (@default_tol _ N) uni_max_iter = Some (n, chi, prev)).
  { destruct (@uni_run_char _ N t al r0 s0 mu (@default_tol _ N) uni_max_iter) as [k [_ [E _]]]. cbv zeta in E. exists (Z.of_nat k). eexists. unfold chi, solve_kepler_uni. rewrite E. reflexivity. }
  destruct Run as (n & prev & Run).
  assert (Ga : good32 17 al) by (split; [exact Fa|]; right; rewrite Rabs_pos_eq by lra; simpl in Ha |- *; lra).
  assert (Th : sqrt (Rabs (B2R al)) * Rabs (B2R chi) <= IZR (2 ^ 10)) by (rewrite (Rabs_pos_eq (B2R al)) by lra; exact B2).
  set (U k := universal k (B2R chi) (B2R al)). set (Z k := uf_size k (B2R chi) (B2R al)).
  set (rad := B2R r0 * U 0%nat + B2R s0 * U 1%nat + U 2%nat). set (RB := B2R r0 * Z 0%nat + Rabs (B2R s0) * Z 1%nat + Z 2%nat).
  assert (R1 : 2 / 5 <= B2R al * rad <= 8 / 5) by (replace (B2R al) with (q ^ 2) by (rewrite <- QQ; ring); exact RD).
  pose proof (Rabs_pos m) as M0. assert (T1 : 1 <= T) by (unfold T; lra).
  assert (R2 : B2R al * RB <= 22 * T).
  { replace (B2R al) with (q ^ 2) by (rewrite <- QQ; ring). exact (size_rad (B2R al) (B2R r0) (B2R s0) (sqrt (B2R mu) * B2R t) (B2R chi) a0 Pr Hecc B1). }
  assert (Ri : 0 < rad) by (apply Rmult_lt_reg_l with (B2R al); lra).
  assert (Zk : forall k, 0 <= Z k <= S k).
  { intro k. unfold Z. rewrite uf_scaled by exact a0. fold q. unfold S, Rdiv. assert (0 < / q ^ k) by (apply Rinv_0_lt_compat, pow_lt; lra).
    assert (0 <= q * Rabs (B2R chi)) by (apply Rmult_le_pos; [lra|apply Rabs_pos]).
    split; [apply Rmult_le_pos; lra|]. apply Rmult_le_compat_r; [lra|]. unfold T. lra. }
  assert (Ir : in_range 17 rad).
  { right. rewrite Rabs_pos_eq by lra. assert (ia : / IZR (2 ^ 6) <= / B2R al <= IZR (2 ^ 14)).
    { split; [apply Rinv_le_contravar; lra|]. rewrite <- (Rinv_inv (IZR (2 ^ 14))). apply Rinv_le_contravar; [apply Rinv_0_lt_compat, IZR_lt; reflexivity|lra]. }
    assert (re : rad = (B2R al * rad) * / B2R al) by (field; lra). rewrite re. split.
    - apply Rle_trans with (2 / 5 * / IZR (2 ^ 6)); [simpl; lra|]. apply Rmult_le_compat; try lra; left; apply Rinv_0_lt_compat, IZR_lt; reflexivity.
    - apply Rle_trans with (8 / 5 * IZR (2 ^ 14)); [|simpl; lra]. apply Rmult_le_compat; try lra; left; apply Rinv_0_lt_compat; lra. }
  assert (Cr : 3000 * / IZR (2 ^ 24) * RB <= rad).
  { apply Rmult_le_reg_l with (B2R al); [lra|]. replace (B2R al * (3000 * / IZR (2 ^ 24) * RB)) with (3000 * / IZR (2 ^ 24) * (B2R al * RB)) by ring.
    apply Rle_trans with (3000 * / IZR (2 ^ 24) * (22 * T)); [apply Rmult_le_compat_l; [simpl; lra|exact R2]|]. unfold T. simpl in Hm |- *. lra. }
  set (b := B2R (@default_tol _ N) + 330 * ((INR c + 16) * / IZR (2 ^ 24) * T) / q ^ 3).
  assert (q3 : 0 < q ^ 3) by (apply pow_lt; lra).
  assert (K : Rabs (B2R r0 * U 1%nat + B2R s0 * U 2%nat + U 3%nat - sqrt (B2R mu) * B2R t) <= b).
  { apply Rmult_le_reg_l with (q ^ 3); [exact q3|]. apply Rle_trans with (1 := RS). right. unfold b, T. field. split; [|lra]. apply IZR_neq. discriminate. }
  assert (Nn : ~ B2R al < 0) by lra.
  destruct (B32Back.kepler_back_any L c Hc Trig x v mu t Gx Gv Gm Pm Gt Wide n chi prev Run Ga Gr Gs Gc (fun _ => Th) (fun P => False_ind _ (Nn P)) Ir Cr b (fun _ => K))
    as (t' & x' & v' & p & w & D1 & D2 & D3 & D4 & D5 & D6).
  exists t', x', v', p, w. split; [exact D1|]. fold U rad in D2. change (vnorm p = rad) in D2. split; [rewrite D2; exact R1|]. split; [exact D3|]. split; [exact D4|]. split; [exact D5|].
  intros ts i Ht. destruct (D6 ts i Ht) as (P & Q & E & O1 & O2). exists P, Q. split; [exact E|].
  pose proof (pos_INR c) as Pc. assert (X0 : 0 <= X) by apply sqrt_pos. assert (V0 : 0 <= V) by apply sqrt_pos. assert (H0 : 0 < H).
  { assert (0 <= H) by apply sqrt_pos. destruct (Req_dec H 0) as [K0|K0]; [|lra]. exfalso. rewrite K0 in Wide. replace (0 ^ 2) with 0 in Wide by ring.
    assert (D0 : 0 <= 2 * B2R mu / X).
    { unfold Rdiv. destruct X0 as [P0 | P0]; [apply Rmult_le_pos; [lra | left; apply Rinv_0_lt_compat; exact P0] | rewrite <- P0, Rinv_0; lra]. }
    assert (0 <= 50 * / IZR (2 ^ 24) * (2 * B2R mu / X + V ^ 2) * X ^ 2); [|lra].
    apply Rmult_le_pos; [apply Rmult_le_pos; [simpl; lra | pose proof (pow2_ge_0 V); lra] | apply pow2_ge_0]. }
  assert (W0 : 0 <= W).
  { unfold W. apply Rmult_le_pos; [apply Rmult_le_pos; [|exact X0]|left; apply Rinv_0_lt_compat; exact H0]. pose proof (pow2_ge_0 V).
    assert (D0 : 0 <= 2 * B2R mu / X).
    { unfold Rdiv. destruct X0 as [P0 | P0]; [apply Rmult_le_pos; [lra | left; apply Rinv_0_lt_compat; exact P0] | rewrite <- P0, Rinv_0; lra]. } lra. }
  assert (ir : 0 < / B2R r0) by (apply Rinv_0_lt_compat; lra). assert (im : 0 < / sqrt (B2R mu)) by (apply Rinv_0_lt_compat, sqrt_lt_R0, Pm).
  pose proof (Zk 0%nat) as Z0. pose proof (Zk 1%nat) as Z1. pose proof (Zk 2%nat) as Z2. pose proof (Rabs_pos (B2R s0)) as A0.
  assert (sm : 0 < sqrt (B2R mu)) by (apply sqrt_lt_R0, Pm).
  assert (RR : 0 <= RB / rad ^ 2 <= 140 * T * B2R al).
  { assert (RB0 : 0 <= RB) by (unfold RB; assert (0 <= B2R r0 * Z 0%nat) by (apply Rmult_le_pos; lra); assert (0 <= Rabs (B2R s0) * Z 1%nat) by (apply Rmult_le_pos; lra); lra).
    assert (r2 : 0 < rad ^ 2) by (apply pow_lt; exact Ri).
    split; [apply Rmult_le_pos; [exact RB0|left; apply Rinv_0_lt_compat; exact r2]|].
    apply Rmult_le_reg_r with (rad ^ 2); [exact r2|]. unfold Rdiv. rewrite Rmult_assoc, Rinv_l, Rmult_1_r by lra.
    apply Rmult_le_reg_l with (B2R al); [exact a0|]. apply Rle_trans with (1 := R2).
    replace (B2R al * (140 * T * B2R al * rad ^ 2)) with (140 * T * (B2R al * rad) ^ 2) by ring.
    assert (4 / 25 <= (B2R al * rad) ^ 2) by (replace (4 / 25) with ((2 / 5) ^ 2) by field; apply pow_incr; lra).
    apply Rle_trans with (140 * T * (4 / 25)); [lra|]. apply Rmult_le_compat_l; lra. }
  split; [apply offv_wide with (3 := O1) | apply offv_wide with (3 := O2)]; try lra.
  - fold X V H W. apply Rplus_le_compat.
    + apply Rmult_le_compat_r; [exact X0|]. apply Rplus_le_compat_l, Rmult_le_compat_r; [lra|apply Zk].
    + apply Rmult_le_compat_r; [lra|]. apply Rmult_le_compat_r; [lra|]. apply Rplus_le_compat; apply Rmult_le_compat_l; try lra; apply Zk.
  - fold X V H W. fold U rad Z RB. change (sqrt (B2R mu) * RB / rad ^ 2 * Z 1%nat / B2R r0 * X + (1 + Z 2%nat * RB / rad ^ 2) * (V + W) <= sqrt (B2R mu) * (140 * T * B2R al) * S 1%nat / B2R r0 * X + (1 + S 2%nat * (140 * T * B2R al)) * (V + W)).
    replace (sqrt (B2R mu) * RB / rad ^ 2 * Z 1%nat / B2R r0 * X) with (sqrt (B2R mu) * (RB / rad ^ 2) * Z 1%nat / B2R r0 * X) by (unfold Rdiv; ring).
    replace (Z 2%nat * RB / rad ^ 2) with (Z 2%nat * (RB / rad ^ 2)) by (unfold Rdiv; ring).
    set (y := RB / rad ^ 2) in *. set (Y := 140 * T * B2R al) in *.
    apply Rplus_le_compat.
    + apply Rmult_le_compat_r; [exact X0|]. apply Rmult_le_compat_r; [lra|].
      apply Rmult_le_compat; [apply Rmult_le_pos; lra|lra|apply Rmult_le_compat_l; lra|lra].
    + apply Rmult_le_compat_r; [lra|]. apply Rplus_le_compat_l. apply Rmult_le_compat; lra.
Qed.
(** the same in terms of the eccentricity of the given state *)
Lemma kepler_ellipse_ecc (L : libm) (c : nat) : (c <= 8)%nat -> trig32 L c (2 * IZR (2 ^ 10)) (2 * 10) ->
  forall (x v : V3 b32) (mu t : b32), good32v 17 x -> good32v 8 v -> good32 20 mu -> 0 < B2R mu -> good32 40 t ->
  let X := vnorm (real32 x) in let V := vnorm (real32 v) in let H := vnorm (cross (real32 x) (real32 v)) in
  let N := Num_B32 L in let r0 := @vector_norm _ N x in let s0 := @sigma_fn _ N x v mu in let al := @alpha_of _ N r0 (@vector_norm _ N v) mu in
  / IZR (2 ^ 5) <= X <= IZR (2 ^ 12) -> good32 17 s0 ->
  vnorm (laplace (B2R mu) (real32 x) (real32 v)) <= 599 / 1000 ->
  let q := sqrt (B2R al) in let m := q ^ 3 * (sqrt (B2R mu) * B2R t) in
  / IZR (2 ^ 6) <= Rabs m <= IZR (2 ^ 4) ->
  let T := 1 + Rabs m in let S k := 7 * T / q ^ k in let W := (2 * B2R mu / X + V ^ 2) * X / H in
  exists (t' : R) (x' v' p w : vec), flows_to (B2R mu) t' (x', v') (p, w) /\ 2 / 5 <= B2R al * vnorm p <= 8 / 5 /\
    sqrt (B2R mu) * Rabs (t' - B2R t) <= B2R (@default_tol _ N) + 330 * ((INR c + 16) * / IZR (2 ^ 24) * T) / q ^ 3 /\
    vnorm (vminus x' (real32 x)) <= 4 * / IZR (2 ^ 24) * X /\
    vnorm (vminus v' (real32 v)) <= / IZR (2 ^ 24) * (13 * V + 50 * W) /\
    forall (ts : list b32) (i : nat), nth_error ts i = Some t -> exists P Q : V3 b32, nth_error (@kepler _ N ts x v mu) i = Some (P, Q) /\
      off32v (INR c + 50) ((1 + S 2%nat / B2R r0) * X + (B2R r0 * S 1%nat + Rabs (B2R s0) * S 2%nat) / sqrt (B2R mu) * (V + W)) P p /\
      off32v (2 * INR c + 50) (sqrt (B2R mu) * (140 * T * B2R al) * S 1%nat / B2R r0 * X + (1 + S 2%nat * (140 * T * B2R al)) * (V + W)) Q w.
Proof.
  intros Hc Trig x v mu t Gx Gv Gm Pm Gt X V H N r0 s0 al HX Gs Hecc q m Hm T S W.
  set (e := / IZR (2 ^ 24)) in *. assert (Pe : 0 < e <= / 1000000) by (unfold e; simpl; lra).
  assert (PX : 0 < X) by (assert (0 < / IZR (2 ^ 5)) by (apply Rinv_0_lt_compat, IZR_lt; reflexivity); lra).
  assert (Wide : 50 * e * (2 * B2R mu / X + V ^ 2) * X ^ 2 < H ^ 2) by exact (ecc_wide (B2R mu) e (real32 x) (real32 v) Pm PX Pe Hecc).
  assert (PH : 0 < H).
  { assert (0 <= H) by apply sqrt_pos. destruct (Req_dec H 0) as [K0|K0]; [|lra]. exfalso. rewrite K0 in Wide. replace (0 ^ 2) with 0 in Wide by ring.
    assert (D0 : 0 <= 2 * B2R mu / X) by (unfold Rdiv; apply Rmult_le_pos; [lra | left; apply Rinv_0_lt_compat; exact PX]).
    assert (0 <= 50 * e * (2 * B2R mu / X + V ^ 2) * X ^ 2); [|lra].
    apply Rmult_le_pos; [apply Rmult_le_pos; [lra | pose proof (pow2_ge_0 V); lra] | apply pow2_ge_0]. }
  assert (Nz : forall a : vec, cross vzero a = vzero /\ cross a vzero = vzero) by (intro a; unfold cross, vzero; cbn [c0 c1 c2]; split; f_equal; ring).
  assert (N0 : vnorm vzero = 0) by (unfold vnorm, dot, vzero; cbn [c0 c1 c2]; rewrite Rmult_0_l, !Rplus_0_r; apply sqrt_0).
  assert (Nx : real32 x <> vzero) by (intro Z; unfold H in PH; rewrite Z, (proj1 (Nz _)), N0 in PH; lra).
  assert (Nv : real32 v <> vzero) by (intro Z; unfold H in PH; rewrite Z, (proj2 (Nz _)), N0 in PH; lra).
  destruct (B32Geo.geo_norm L x Gx) as [Fr Er]. destruct (B32Geo.geo_sigma L x v Gx Gv mu Gm Pm) as [_ Es].
  destruct (B32Back.alpha_off L x v mu Gx Gv Gm Pm Nx Nv) as [Fa Ea].
  fold N r0 X e in Er. fold N r0 al X V e in Ea, Fa. fold N r0 in Fr.
  destruct (ecc_near (B2R mu) e (B2R r0) (B2R al) (B2R s0) (real32 x) (real32 v) Pm PX Pe Er Es Ea (RLib.cauchy_schwarz _ _) Hecc) as [H1 H2]. fold X in H2.
  assert (iX : 0 < / X) by (apply Rinv_0_lt_compat; exact PX).
  assert (I : / IZR (2 ^ 12) <= / X <= IZR (2 ^ 5)).
  { split; [apply Rinv_le_contravar; lra|]. rewrite <- (Rinv_inv (IZR (2 ^ 5))). apply Rinv_le_contravar; [apply Rinv_0_lt_compat, IZR_lt; reflexivity|lra]. }
  assert (ea : B2R al = (B2R al * X) * / X) by (field; lra).
  assert (Ha : / IZR (2 ^ 14) <= B2R al <= IZR (2 ^ 6)).
  { rewrite ea. split.
    - apply Rle_trans with (39 / 100 * / IZR (2 ^ 12)); [simpl; lra|]. assert (0 < / IZR (2 ^ 12)) by (apply Rinv_0_lt_compat, IZR_lt; reflexivity). apply Rmult_le_compat; lra.
    - apply Rle_trans with (161 / 100 * IZR (2 ^ 5)); [|simpl; lra]. apply Rmult_le_compat; lra. }
  assert (Gr : good32 17 r0).
  { split; [exact Fr|]. assert (4 * e * X <= / 2 * X) by (apply Rmult_le_compat_r; lra). apply Rabs_le_between in Er.
    right. rewrite Rabs_pos_eq by lra. simpl in HX |- *. lra. }
  exact (kepler_ellipse L c Hc Trig x v mu t Gx Gv Gm Pm Gt Wide Fa Ha Gr Gs H1 Hm).
Qed.
