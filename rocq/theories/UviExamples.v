(** * UviExamples: concrete cases for C80-C83 *)
From Coq Require Import ZArith Reals Lra Lia Psatz Bool List.
From Coquelicot Require Import Coquelicot.
From Flocq Require Import Core IEEE754.BinarySingleNaN.
From Verif Require Import Num NumB32 NumB64 NumR Spec SpecFl SpecFl32 SpecFl64 SpecFlV RelLib RoundFn Fine32 Fine64 GeoExamples.
From Verif Require Import OrbIntegrals RotMat OrbElements Uniformulas UfReal Lagrange KepEqu PropKepler LoopFacts.
From Verif Require B64An B64Coe B64Uf B64Uvi B64Stop B64Newton B64Lib B32An B32Coe B32Uf B32Uvi B32Stop B32Newton B32Lib.
Local Open Scope R_scope.

Lemma ln_le' (a b : R) : 0 < a -> a <= b -> ln a <= ln b.
Proof. intros P [H | ->]; [left; apply ln_increasing; assumption | right; reflexivity]. Qed.
Lemma cosh_up (a b : R) : 0 <= a <= b -> cosh a <= cosh b.
Proof.
  intro H. destruct (MVT_gen cosh a b sinh) as [w [W1 W2]].
  - intros z _. apply cosh_d.
  - intros z _. apply continuity_pt_filterlim, (ex_derive_continuous cosh z). exists (sinh z). apply cosh_d.
  - rewrite Rmin_left, Rmax_right in W1 by lra. assert (0 <= sinh w). { unfold sinh. pose proof (exp_le' (- w) w ltac:(lra)). lra. }
    assert (0 <= sinh w * (b - a)) by (apply Rmult_le_pos; lra). lra.
Qed.
Lemma sinh_between (x : R) : 0 <= x -> x <= sinh x <= x * cosh x.
Proof.
  intro H. destruct (MVT_gen sinh 0 x cosh) as [w [W1 W2]].
  - intros z _. apply sinh_d.
  - intros z _. apply continuity_pt_filterlim, (ex_derive_continuous sinh z). exists (cosh z). apply sinh_d.
  - rewrite Rmin_left, Rmax_right in W1 by lra. destruct (cosh_ge_sinh w) as [_ [_ C]]. pose proof (cosh_up w x ltac:(lra)).
    assert (Z : sinh 0 = 0) by (unfold sinh; rewrite Ropp_0, exp_0; lra). rewrite Z in W2. rewrite !Rminus_0_r in W2. rewrite W2. split; nra.
Qed.
Lemma sinh_lip (a b m : R) : (forall z, Rmin a b <= z <= Rmax a b -> cosh z <= m) -> Rabs (sinh a - sinh b) <= m * Rabs (a - b).
Proof.
  intro H. destruct (MVT_gen sinh b a cosh) as [w [W1 W2]].
  - intros z _. apply sinh_d.
  - intros z _. apply continuity_pt_filterlim, (ex_derive_continuous sinh z). exists (cosh z). apply sinh_d.
  - rewrite W2, Rabs_mult. apply Rmult_le_compat_r; [apply Rabs_pos |]. destruct (cosh_ge_sinh w) as [_ [C _]].
    apply Rle_trans with (1 := C). apply H. rewrite Rmin_comm, Rmax_comm. exact W1.
Qed.

Lemma fval64 (x : b64) (s : bool) (m : positive) (e : Z) : B2SF x = SpecFloat.S754_finite s m e -> is_finite x = true /\ B2R x = F2R (Float radix2 (cond_Zopp s (Zpos m)) e).
Proof. destruct x; simpl; intro H; try discriminate H. injection H as -> -> ->. split; reflexivity. Qed.
Lemma fin64_Z (z : Z) : (Z.abs z < 2 ^ 24)%Z -> is_finite (b64_Z z) = true.
Proof. intro H. apply (int64 z H). Qed.
Lemma good64_Z (r z : Z) : (Z.abs z < 2 ^ 24)%Z -> (Z.abs z <= 2 ^ r)%Z -> (0 <= r)%Z -> good64 r (b64_Z z).
Proof.
  intros H1 H2 Hr. destruct (int64 z H1) as [F V]. split; [exact F |]. rewrite V.
  destruct (Z.eq_dec z 0) as [-> | Nz]; [left; reflexivity | right]. rewrite <- abs_IZR. split; [| apply IZR_le; exact H2].
  apply Rle_trans with 1; [| apply IZR_le; lia]. rewrite <- Rinv_1. apply Rinv_le; [lra |]. apply IZR_le. pose proof (Z.pow_pos_nonneg 2 r). lia.
Qed.
(** coe2rv of p = 3, e = 1, incl = 1, all other angles 0, mu = 12 *)
Lemma coe64_ex : let N := Num_B64 fine_libm64 in let x := @coe2rv _ N (b64_Z 3) (b64_Z 1) (b64_Z 1) (b64_Z 0) (b64_Z 0) (b64_Z 0) (b64_Z 12) in
  off64v 180 (3 / 2) (fst x) (mk3 (3 / 2) 0 0) /\ off64v 156 4 (snd x) (mk3 0 (4 * cos 1) (4 * sin 1)).
Proof.
  cbv zeta. destruct (int64 3 ltac:(lia)) as [_ V3]. destruct (int64 1 ltac:(lia)) as [_ V1]. destruct (int64 0 ltac:(lia)) as [_ V0]. destruct (int64 12 ltac:(lia)) as [_ Vm].
  pose proof (B64Coe.coe_ok fine_libm64 (b64_Z 3) (b64_Z 1) (b64_Z 1) (b64_Z 0) (b64_Z 0) (b64_Z 0) (b64_Z 12) 6
    (good64_Z 100 3 ltac:(lia) ltac:(lia) ltac:(lia)) ltac:(rewrite V3; lra) (good64_Z 100 12 ltac:(lia) ltac:(lia) ltac:(lia)) ltac:(rewrite Vm; lra)
    (good64_Z 900 1 ltac:(lia) ltac:(lia) ltac:(lia)) ltac:(rewrite V1; lra) ltac:(lia) (fun x _ => fine64_trig x)) as K.
  rewrite V3, V1, V0, Vm, cos_0 in K. specialize (K ltac:(lra)). cbv zeta in K. destruct K as [K1 K2].
  assert (Q : sqrt (12 / 3) = 2) by (replace (12 / 3) with (2 * 2) by field; apply sqrt_square; lra). rewrite Q in K2.
  unfold elements_position, elements_velocity in K1, K2. rewrite Q in K2. rewrite Rplus_0_r, cos_0, sin_0 in K1, K2. simpl INR in K1, K2. simpl pow in K1.
  unfold smul in K1, K2; cbn [c0 c1 c2] in K1, K2.
  assert (T : forall C D m n g v w, off64v C m g v -> C = D -> m = n -> v = w -> off64v D n g w) by (intros; subst; assumption).
  split.
  - apply (T _ _ _ _ _ _ _ K1); [ring | field | f_equal; field].
  - apply (T _ _ _ _ _ _ _ K2); [ring | field | f_equal; field].
Qed.
(** chi = 1 with alpha = 1 and alpha = -1 *)
Lemma uf64_ex : let N := Num_B64 fine_libm64 in
  off64 18 4 (@ufunc1 _ N (b64_Z 1) (b64_Z 1)) (sin 1) /\ off64 18 (4 * cosh 1) (@ufunc2 _ N (b64_Z 1) (b64_Z (-1))) (cosh 1 - 1).
Proof.
  cbv zeta. destruct (int64 1 ltac:(lia)) as [_ V1]. destruct (int64 (-1) ltac:(lia)) as [_ Vm].
  assert (A1 : Rabs (-1) = 1) by (rewrite Rabs_left; lra).
  pose proof (B64Uvi.uf_any fine_libm64 (b64_Z 1) (b64_Z 1) 6 ltac:(lia) (good64_Z 100 1 ltac:(lia) ltac:(lia) ltac:(lia)) (good64_Z 100 1 ltac:(lia) ltac:(lia) ltac:(lia))
    (fine64_ok (2 * IZR (2 ^ 30)) (2 * 100) ltac:(lra)) ltac:(rewrite V1, Rabs_R1, sqrt_1; intros _; rewrite Rmult_1_r; apply IZR_le; lia) ltac:(rewrite V1; lra)) as [_ [K1 _]].
  pose proof (B64Uvi.uf_any fine_libm64 (b64_Z 1) (b64_Z (-1)) 6 ltac:(lia) (good64_Z 100 (-1) ltac:(lia) ltac:(lia) ltac:(lia)) (good64_Z 100 1 ltac:(lia) ltac:(lia) ltac:(lia))
    (fine64_ok (2 * IZR (2 ^ 30)) (2 * 100) ltac:(lra)) ltac:(rewrite Vm; lra) ltac:(rewrite V1, Vm, A1, Rabs_R1, sqrt_1; intros _; lra)) as [_ [_ [K2 _]]].
  rewrite V1 in K1, K2. rewrite Vm in K2.
  destruct (uf_pos 1 1 ltac:(lra)) as [_ [E1 _]]. destruct (uf_neg 1 (-1) ltac:(lra)) as [_ [_ [E2 _]]].
  rewrite Rabs_R1, sqrt_1, Rmult_1_r in E1. rewrite A1, sqrt_1, Rmult_1_r in E2.
  assert (S1 : uf_size 1 1 1 = 4).
  { unfold uf_size. destruct (Req_EM_T 1 0); [lra |]. rewrite spread_pos by lra. rewrite Rabs_R1, sqrt_1. simpl. field. }
  assert (S2 : uf_size 2 1 (-1) = 4 * cosh 1).
  { unfold uf_size. destruct (Req_EM_T (-1) 0); [lra |]. rewrite spread_neg by lra. rewrite A1, Rabs_R1, sqrt_1, Rmult_1_r. simpl. field. }
  rewrite S1 in K1. rewrite S2 in K2. split.
  - apply (B64An.An_final fine_libm64 18 _ _ _ _ _ _ _ K1); [lia | simpl; lra | lra | rewrite E1; field].
  - apply (B64An.An_final fine_libm64 18 _ _ _ _ _ _ _ K2); [lia | simpl; lra | lra | rewrite E2; field].
Qed.
(** chi + chi^3 / 6 = 1: the universal solver stops after 4 of 50 iterations, whatever the math library *)
Lemma uni64_ex : exists chi prev : b64, B2SF chi = SpecFloat.S754_finite false 7967968424238353 (-53) /\
  (forall L : libm64, @uni_run _ (Num_B64 L) (b64_Z 1) (b64_Z 0) (b64_Z 1) (b64_Z 0) (b64_Z 1) (@default_tol _ (Num_B64 L)) 50 = Some (4%Z, chi, prev)) /\
  Rabs (B2R chi + B2R chi ^ 3 / 6 - 1) <= 2 / 1000000.
Proof.
  set (L0 := fine_libm64). set (run := fun L => @uni_run _ (Num_B64 L) (b64_Z 1) (b64_Z 0) (b64_Z 1) (b64_Z 0) (b64_Z 1) (@default_tol _ (Num_B64 L)) 50).
  set (sf := fun o : option (Z * b64 * b64) => match o with Some (i, x, y) => Some (i, B2SF x, B2SF y) | None => None end).
  assert (R : forall L, sf (run L) = Some (4%Z, SpecFloat.S754_finite false 7967968424238353 (-53), SpecFloat.S754_finite false 7968020579661074 (-53))) by (intro L; vm_compute; reflexivity).
  destruct (run L0) as [[[i chi] prev] |] eqn:E; [| specialize (R L0); rewrite E in R; discriminate R].
  pose proof (R L0) as R0. rewrite E in R0. cbn [sf] in R0. injection R0 as I X Y.
  exists chi, prev. split; [exact X |].
  assert (All : forall L, run L = Some (4%Z, chi, prev)).
  { intro L. pose proof (R L) as RL. destruct (run L) as [[[i' x] y] |]; [| discriminate RL]. cbn [sf] in RL. injection RL as I' X' Y'.
    rewrite I'. assert (x = chi) as -> by (apply B2SF_inj; congruence). assert (y = prev) as -> by (apply B2SF_inj; congruence). reflexivity. }
  split; [exact All |].
  destruct (fval64 _ _ _ _ X) as [Fc Vc]. assert (Bc : 8846 / 10000 <= B2R chi <= 8847 / 10000) by (rewrite Vc; unfold F2R; simpl; lra).
  destruct (int64 1 ltac:(lia)) as [_ V1]. destruct (int64 0 ltac:(lia)) as [_ V0].
  assert (Gc : good64 100 chi). { split; [exact Fc |]. apply range_between; [simpl; lra | lia]. }
  assert (Tl : is_finite (@default_tol _ (Num_B64 L0)) = true /\ B2R (@default_tol _ (Num_B64 L0)) <= 101 / 100000000) by exact (let K := B64Newton.tol_small L0 in conj (proj1 K) (proj2 (proj2 K))).
  pose proof (B64Stop.uni_solved L0 chi (b64_Z 0) 6 ltac:(lia) (good64_Z 100 0 ltac:(lia) ltac:(lia) ltac:(lia)) Gc (fine64_ok (2 * IZR (2 ^ 30)) (2 * 100) ltac:(lra))
    ltac:(rewrite V0; lra) ltac:(rewrite V0; lra) (b64_Z 1) (b64_Z 0) (b64_Z 1) (b64_Z 1) (@default_tol _ (Num_B64 L0)) prev
    (good64_Z 100 1 ltac:(lia) ltac:(lia) ltac:(lia)) ltac:(rewrite V1; lra) (good64_Z 100 0 ltac:(lia) ltac:(lia) ltac:(lia))
    (good64_Z 100 1 ltac:(lia) ltac:(lia) ltac:(lia)) (good64_Z 100 1 ltac:(lia) ltac:(lia) ltac:(lia)) ltac:(rewrite V1; lra) (proj1 Tl) 50 4 (All L0) ltac:(lia)) as [K _].
  cbv zeta in K. rewrite V1, V0 in K. destruct (uf_zero (B2R chi)) as [_ [E1 [E2 [E3 _]]]]. rewrite E1, E2, E3 in K.
  unfold uf_size in K. destruct (Req_EM_T 0 0) as [_ | Q]; [| contradiction]. rewrite Rabs_R0, Rabs_R1, sqrt_1 in K.
  replace (1 * B2R chi + 0 * (B2R chi ^ 2 / 2) + B2R chi ^ 3 / 6 - 1 * 1) with (B2R chi + B2R chi ^ 3 / 6 - 1) in K by ring.
  apply Rle_trans with (1 := K). rewrite (Rabs_pos_eq (B2R chi)) by lra. simpl INR. simpl fact. 
  assert (B2R chi ^ 3 <= 1) by (rewrite <- (pow1 3); apply pow_incr; lra). simpl (_ ^ 1). change (IZR (2 ^ 53)) with 9007199254740992. destruct Tl as [_ Tl]. simpl INR. lra.
Qed.
(** e = 2, Nm = 2^-10, tol = 2^-16: the hyperbolic solver accepts its first guess *)
Definition p2_64 (k : Z) : b64 := binary_normalize 53 1024 _ _ mode_NE 1 k false.
Definition arg64 : b64 := @n_add _ (Num_B64 fine_libm64) (p2_64 (-10)) (@n_sqrt _ (Num_B64 fine_libm64) (@n_add _ (Num_B64 fine_libm64) (@npow _ (Num_B64 fine_libm64) (p2_64 (-10)) 2) (b64_Z 1))).
Lemma hypb64_ex : exists H prev : b64, @hypb_run _ (Num_B64 fine_libm64) (p2_64 (-10)) (b64_Z 2) (p2_64 (-16)) 50 = Some (0%Z, H, prev) /\
  forall x : R, 2 * sinh x - x = / 1024 -> Rabs (B2R H - x) <= / 32768.
Proof.
  destruct (int64 2 ltac:(lia)) as [F2 V2]. assert (N10 : B2SF (p2_64 (-10)) = SpecFloat.S754_finite false 4503599627370496 (-62)) by (vm_compute; reflexivity).
  assert (N16 : B2SF (p2_64 (-16)) = SpecFloat.S754_finite false 4503599627370496 (-68)) by (vm_compute; reflexivity).
  assert (Y : B2SF arg64 = SpecFloat.S754_finite false 4507999821364736 (-52)) by (vm_compute; reflexivity).
  destruct (fval64 _ _ _ _ N10) as [F10 V10]. destruct (fval64 _ _ _ _ N16) as [F16 V16]. destruct (fval64 _ _ _ _ Y) as [FY VY].
  assert (W10 : B2R (p2_64 (-10)) = / 1024) by (rewrite V10; unfold F2R; simpl; lra).
  assert (W16 : B2R (p2_64 (-16)) = / 65536) by (rewrite V16; unfold F2R; simpl; lra).
  assert (G : @hypb_guess _ (Num_B64 fine_libm64) (p2_64 (-10)) (b64_Z 2) = fine64 (ln (B2R arg64))).
  { change (fine64 (ln (B2R (@n_add _ (Num_B64 fine_libm64) (@n_div _ (Num_B64 fine_libm64) (@n_mul _ (Num_B64 fine_libm64) (b64_Z 2) (p2_64 (-10))) (b64_Z 2))
      (@n_sqrt _ (Num_B64 fine_libm64) (@n_add _ (Num_B64 fine_libm64) (@npow _ (Num_B64 fine_libm64) (@n_div _ (Num_B64 fine_libm64) (@n_mul _ (Num_B64 fine_libm64) (b64_Z 2) (p2_64 (-10))) (b64_Z 2)) 2) (b64_Z 1)))))) = fine64 (ln (B2R arg64))).
    assert (Q : @n_div _ (Num_B64 fine_libm64) (@n_mul _ (Num_B64 fine_libm64) (b64_Z 2) (p2_64 (-10))) (b64_Z 2) = p2_64 (-10)) by (apply B2SF_inj; vm_compute; reflexivity).
    rewrite Q. reflexivity. }
  set (y := B2R arg64) in *. set (H := fine64 (ln y)) in *.
  assert (By : y = 4507999821364736 / 4503599627370496) by (rewrite VY; unfold F2R; simpl; lra).
  assert (Py : 0 < y) by (rewrite By; lra).
  assert (L1 : sinh (ln y) = (y - / y) / 2 /\ cosh (ln y) = (y + / y) / 2) by (unfold sinh, cosh; rewrite exp_Ropp, exp_ln by exact Py; split; reflexivity).
  destruct L1 as [LS LC].
  assert (S1 : 9765 / 10000000 <= sinh (ln y) <= 9767 / 10000000) by (rewrite LS, By; lra).
  assert (S2 : cosh (ln y) <= 10001 / 10000) by (rewrite LC, By; lra).
  assert (P0 : 0 <= ln y). { rewrite <- ln_1. apply ln_le'; [lra | rewrite By; lra]. }
  destruct (sinh_between (ln y) P0) as [S3 S4].
  assert (B0 : 9764 / 10000000 <= ln y <= 9767 / 10000000) by (split; [nra | lra]).
  destruct (fine64_err (ln y) 1 ltac:(rewrite Rabs_pos_eq; lra) ltac:(split; [lra | apply IZR_le; lia])) as [FH EH]. fold H in FH, EH.
  rewrite Rmult_1_r in EH. change (IZR (2 ^ 53)) with 9007199254740992 in EH. simpl INR in EH. apply Rabs_le_inv in EH.
  assert (BH : 9760 / 10000000 <= B2R H <= 9775 / 10000000) by lra.
  destruct (sinh_between (B2R H) ltac:(lra)) as [S5 S6].
  assert (C6 : cosh (B2R H) <= 10001 / 10000 * (501 / 500)).
  { apply Rle_trans with (501 / 500 * cosh (ln y)); [apply cosh_near; apply Rabs_le; lra | lra]. }
  assert (Bs : 9760 / 10000000 <= sinh (B2R H) <= 9800 / 10000000) by (split; [lra | nra]).
  assert (GH : good64 100 H) by (split; [exact FH | apply range_between; [simpl; lra | lia]]).
  assert (GN : good64 100 (p2_64 (-10))) by (split; [exact F10 | rewrite W10; apply range_between; [simpl; lra | lia]]).
  assert (BH' : Rabs (B2R H) <= 100) by (rewrite Rabs_pos_eq; lra).
  pose proof (good64_Z 100 2 ltac:(lia) ltac:(lia) ltac:(lia)) as G2. assert (P2 : 0 < B2R (b64_Z 2)) by (rewrite V2; lra).
  pose proof (fine64_ok (2 * IZR (2 ^ 30)) (2 * 100) ltac:(lra)) as TL.
  pose proof (B64Stop.hypb_ok fine_libm64 H (b64_Z 2) 6 ltac:(lia) GH BH' G2 P2 TL _ GN) as [FO EO].
  rewrite V2, W10, (Rabs_pos_eq (B2R H)), (Rabs_pos_eq (/ 1024)) in EO by lra. change (IZR (2 ^ 53)) with 9007199254740992 in EO. simpl INR in EO.
  pose proof (sinh_lip (ln y) (B2R H) 2 ltac:(intros z Z; apply Rle_trans with (501 / 500 * cosh (ln y)); [apply cosh_near; apply Rabs_le; unfold Rmin, Rmax in Z; destruct (Rle_dec (ln y) (B2R H)); lra | lra])) as SL.
  assert (DH : Rabs (ln y - B2R H) <= 7 / 9007199254740992) by (apply Rabs_le; lra).
  assert (SL' : Rabs (sinh (ln y) - sinh (B2R H)) <= 14 / 9007199254740992) by lra. apply Rabs_le_inv in SL'.
  assert (S1' : / 1024 - / 1000000000000 <= sinh (ln y) <= / 1024 + / 1000000000000) by (rewrite LS, By; lra).
  assert (S2' : cosh (ln y) <= 1 + / 1000000) by (rewrite LC, By; lra).
  assert (LB : sinh (ln y) - / 500000000 <= ln y) by nra.
  assert (RS : Rabs (B2R (@kepler_equ_hypb _ (Num_B64 fine_libm64) H (b64_Z 2) (p2_64 (-10)))) <= / 65536).
  { apply Rabs_le. apply Rabs_le_inv in EO. lra. }
  assert (NE : @exceeds _ (Num_B64 fine_libm64) (@kepler_equ_hypb _ (Num_B64 fine_libm64) H (b64_Z 2) (p2_64 (-10))) (p2_64 (-16)) = false).
  { match goal with |- @exceeds _ _ ?k _ = _ => change (Bltb (p2_64 (-16)) (Babs k) = false) end.
    rewrite B64Lib.lt_exact by (rewrite ?is_finite_Babs; assumption). rewrite B2R_Babs, W16. apply Rlt_bool_false. exact RS. }
  destruct (@hypb_run_char _ (Num_B64 fine_libm64) (p2_64 (-10)) (b64_Z 2) (p2_64 (-16)) 50) as [k [_ [E [J _]]]]. cbv zeta in E, J.
  destruct k as [| k]; [| exfalso; specialize (J 0%nat ltac:(lia)); cbn [iterate] in J; rewrite G in J; rewrite NE in J; discriminate J].
  cbn [iterate] in E. rewrite G in E. eexists H, _. split; [exact E |].
  intros x Hx. pose proof (B64Stop.hypb_solved fine_libm64 H (b64_Z 2) 6 ltac:(lia) GH BH' G2 P2 TL _ _ _ GN F16 50 0 E ltac:(lia)) as [_ K].
  cbv zeta in K. rewrite V2, W10, W16 in K. specialize (K x Hx). replace (2 - 1) with 1 in K by ring. rewrite Rmult_1_l in K.
  apply Rle_trans with (1 := K). rewrite (Rabs_pos_eq (B2R H)), (Rabs_pos_eq (/ 1024)) by lra. change (IZR (2 ^ 53)) with 9007199254740992. simpl INR. lra.
Qed.
(** the state one unit of universal anomaly after x = (1, 0, 0), v = (0, 2, 0) with mu = 2, a parabola *)
Lemma state64_ex (L : libm64) : trig64 L 6 (2 * IZR (2 ^ 30)) (2 * 100) ->
  let N := Num_B64 L in let s := @state_at_chi _ N (b64_Z 1) (b64_Z 0) (b64_Z 0) (b64_Z 1) (mk3 (b64_Z 1) (b64_Z 0) (b64_Z 0)) (mk3 (b64_Z 0) (b64_Z 2) (b64_Z 0)) (b64_Z 2) in
  off64v 27 (3 / 2 + 2 / sqrt 2) (fst s) (mk3 (1 / 2) (2 / sqrt 2) 0) /\
  off64v 48 (2 / 3 * sqrt 2 + 8 / 3) (snd s) (mk3 (- (2 / 3 * sqrt 2)) (4 / 3) 0).
Proof.
  intro TL. cbv zeta. destruct (int64 1 ltac:(lia)) as [F1 V1]. destruct (int64 0 ltac:(lia)) as [F0 V0]. destruct (int64 2 ltac:(lia)) as [F2 V2].
  assert (S2 : 0 < sqrt 2) by (apply sqrt_lt_R0; lra). 
  assert (N1 : vnorm (mk3 1 0 0) = 1) by (unfold vnorm, dot; cbn [c0 c1 c2]; replace (1 * 1 + 0 * 0 + 0 * 0) with 1 by ring; apply sqrt_1).
  assert (N2 : vnorm (mk3 0 2 0) = 2) by (unfold vnorm, dot; cbn [c0 c1 c2]; replace (0 * 0 + 2 * 2 + 0 * 0) with (2 * 2) by ring; apply sqrt_square; lra).
  pose proof (B64Uvi.state_ok L (b64_Z 1) (b64_Z 0) 6 ltac:(lia) (good64_Z 100 0 ltac:(lia) ltac:(lia) ltac:(lia)) (good64_Z 100 1 ltac:(lia) ltac:(lia) ltac:(lia)) TL
    ltac:(rewrite V0; lra) ltac:(rewrite V0; lra) (b64_Z 1) (b64_Z 0) (b64_Z 1) (b64_Z 2) (good64_Z 100 1 ltac:(lia) ltac:(lia) ltac:(lia)) ltac:(rewrite V1; lra)
    (good64_Z 100 0 ltac:(lia) ltac:(lia) ltac:(lia)) (good64_Z 100 1 ltac:(lia) ltac:(lia) ltac:(lia)) (good64_Z 100 2 ltac:(lia) ltac:(lia) ltac:(lia)) ltac:(rewrite V2; lra)) as K.
  rewrite V1, V0, V2 in K. unfold lagrange_state in K. destruct (uf_zero 1) as [E0 [E1 [E2 _]]]. rewrite E0, E1, E2 in K.
  assert (Z : forall n, uf_size n 1 0 = / INR (fact n)).
  { intro n. unfold uf_size. destruct (Req_EM_T 0 0) as [_ | Q]; [| contradiction]. rewrite Rabs_R1, pow1. unfold Rdiv. apply Rmult_1_l. }
  rewrite !Z, Rabs_R0 in K. simpl fact in K. simpl INR in K. simpl pow in K.
  specialize (K ltac:(apply range_between; [simpl; lra | lia]) ltac:(lra) ltac:(simpl; lra) (mk3 (b64_Z 1) (b64_Z 0) (b64_Z 0)) (mk3 (b64_Z 0) (b64_Z 2) (b64_Z 0))).
  unfold real64 in K; cbn [c0 c1 c2] in K. rewrite V1, V0, V2 in K.
  assert (G1 : good64v 100 (mk3 (b64_Z 1) (b64_Z 0) (b64_Z 0))).
  { split; [cbn [c0 c1 c2]; auto |]. unfold real64; cbn [c0 c1 c2]. rewrite V1, V0, N1. apply range_between; [simpl; lra | lia]. }
  assert (G2 : good64v 100 (mk3 (b64_Z 0) (b64_Z 2) (b64_Z 0))).
  { split; [cbn [c0 c1 c2]; auto |]. unfold real64; cbn [c0 c1 c2]. rewrite V2, V0, N2. apply range_between; [simpl; lra | lia]. }
  specialize (K G1 G2). cbv zeta in K. rewrite N1, N2 in K. destruct K as [K1 K2].
  unfold vplus, smul in K1, K2; cbn [c0 c1 c2 fst snd] in K1, K2.
  assert (T : forall C D m n g v w, off64v C m g v -> C = D -> m = n -> v = w -> off64v D n g w) by (intros; subst; assumption).
  split.
  - apply (T _ _ _ _ _ _ _ K1); [ring | field; lra | f_equal; field; lra].
  - apply (T _ _ _ _ _ _ _ K2); [ring | field; lra | f_equal; field; lra].
Qed.

Lemma fval32 (x : b32) (s : bool) (m : positive) (e : Z) : B2SF x = SpecFloat.S754_finite s m e -> is_finite x = true /\ B2R x = F2R (Float radix2 (cond_Zopp s (Zpos m)) e).
Proof. destruct x; simpl; intro H; try discriminate H. injection H as -> -> ->. split; reflexivity. Qed.
Lemma fin32_Z (z : Z) : (Z.abs z < 2 ^ 24)%Z -> is_finite (b32_Z z) = true.
Proof. intro H. apply (int32 z H). Qed.
Lemma good32_Z (r z : Z) : (Z.abs z < 2 ^ 24)%Z -> (Z.abs z <= 2 ^ r)%Z -> (0 <= r)%Z -> good32 r (b32_Z z).
Proof.
  intros H1 H2 Hr. destruct (int32 z H1) as [F V]. split; [exact F |]. rewrite V.
  destruct (Z.eq_dec z 0) as [-> | Nz]; [left; reflexivity | right]. rewrite <- abs_IZR. split; [| apply IZR_le; exact H2].
  apply Rle_trans with 1; [| apply IZR_le; lia]. rewrite <- Rinv_1. apply Rinv_le; [lra |]. apply IZR_le. pose proof (Z.pow_pos_nonneg 2 r). lia.
Qed.
(** coe2rv of p = 3, e = 1, incl = 1, all other angles 0, mu = 12 *)
Lemma coe32_ex : let N := Num_B32 fine_libm32 in let x := @coe2rv _ N (b32_Z 3) (b32_Z 1) (b32_Z 1) (b32_Z 0) (b32_Z 0) (b32_Z 0) (b32_Z 12) in
  off32v 180 (3 / 2) (fst x) (mk3 (3 / 2) 0 0) /\ off32v 156 4 (snd x) (mk3 0 (4 * cos 1) (4 * sin 1)).
Proof.
  cbv zeta. destruct (int32 3 ltac:(lia)) as [_ V3]. destruct (int32 1 ltac:(lia)) as [_ V1]. destruct (int32 0 ltac:(lia)) as [_ V0]. destruct (int32 12 ltac:(lia)) as [_ Vm].
  pose proof (B32Coe.coe_ok fine_libm32 (b32_Z 3) (b32_Z 1) (b32_Z 1) (b32_Z 0) (b32_Z 0) (b32_Z 0) (b32_Z 12) 6
    (good32_Z 17 3 ltac:(lia) ltac:(lia) ltac:(lia)) ltac:(rewrite V3; lra) (good32_Z 20 12 ltac:(lia) ltac:(lia) ltac:(lia)) ltac:(rewrite Vm; lra)
    (good32_Z 100 1 ltac:(lia) ltac:(lia) ltac:(lia)) ltac:(rewrite V1; lra) ltac:(lia) (fun x _ => fine32_trig x)) as K.
  rewrite V3, V1, V0, Vm, cos_0 in K. specialize (K ltac:(lra)). cbv zeta in K. destruct K as [K1 K2].
  assert (Q : sqrt (12 / 3) = 2) by (replace (12 / 3) with (2 * 2) by field; apply sqrt_square; lra). rewrite Q in K2.
  unfold elements_position, elements_velocity in K1, K2. rewrite Q in K2. rewrite Rplus_0_r, cos_0, sin_0 in K1, K2. simpl INR in K1, K2. simpl pow in K1.
  unfold smul in K1, K2; cbn [c0 c1 c2] in K1, K2.
  assert (T : forall C D m n g v w, off32v C m g v -> C = D -> m = n -> v = w -> off32v D n g w) by (intros; subst; assumption).
  split.
  - apply (T _ _ _ _ _ _ _ K1); [ring | field | f_equal; field].
  - apply (T _ _ _ _ _ _ _ K2); [ring | field | f_equal; field].
Qed.
(** chi = 1 with alpha = 1 and alpha = -1 *)
Lemma uf32_ex : let N := Num_B32 fine_libm32 in
  off 18 4 (@ufunc1 _ N (b32_Z 1) (b32_Z 1)) (sin 1) /\ off 18 (4 * cosh 1) (@ufunc2 _ N (b32_Z 1) (b32_Z (-1))) (cosh 1 - 1).
Proof.
  cbv zeta. destruct (int32 1 ltac:(lia)) as [_ V1]. destruct (int32 (-1) ltac:(lia)) as [_ Vm].
  assert (A1 : Rabs (-1) = 1) by (rewrite Rabs_left; lra).
  pose proof (B32Uvi.uf_any fine_libm32 (b32_Z 1) (b32_Z 1) 6 ltac:(lia) (good32_Z 17 1 ltac:(lia) ltac:(lia) ltac:(lia)) (good32_Z 12 1 ltac:(lia) ltac:(lia) ltac:(lia))
    (fine32_ok (2 * IZR (2 ^ 10)) (2 * 10) ltac:(lra)) ltac:(rewrite V1, Rabs_R1, sqrt_1; intros _; rewrite Rmult_1_r; apply IZR_le; lia) ltac:(rewrite V1; lra)) as [_ [K1 _]].
  pose proof (B32Uvi.uf_any fine_libm32 (b32_Z 1) (b32_Z (-1)) 6 ltac:(lia) (good32_Z 17 (-1) ltac:(lia) ltac:(lia) ltac:(lia)) (good32_Z 12 1 ltac:(lia) ltac:(lia) ltac:(lia))
    (fine32_ok (2 * IZR (2 ^ 10)) (2 * 10) ltac:(lra)) ltac:(rewrite Vm; lra) ltac:(rewrite V1, Vm, A1, Rabs_R1, sqrt_1; intros _; lra)) as [_ [_ [K2 _]]].
  rewrite V1 in K1, K2. rewrite Vm in K2.
  destruct (uf_pos 1 1 ltac:(lra)) as [_ [E1 _]]. destruct (uf_neg 1 (-1) ltac:(lra)) as [_ [_ [E2 _]]].
  rewrite Rabs_R1, sqrt_1, Rmult_1_r in E1. rewrite A1, sqrt_1, Rmult_1_r in E2.
  assert (S1 : uf_size 1 1 1 = 4).
  { unfold uf_size. destruct (Req_EM_T 1 0); [lra |]. rewrite spread_pos by lra. rewrite Rabs_R1, sqrt_1. simpl. field. }
  assert (S2 : uf_size 2 1 (-1) = 4 * cosh 1).
  { unfold uf_size. destruct (Req_EM_T (-1) 0); [lra |]. rewrite spread_neg by lra. rewrite A1, Rabs_R1, sqrt_1, Rmult_1_r. simpl. field. }
  rewrite S1 in K1. rewrite S2 in K2. split.
  - apply (B32An.An_final fine_libm32 18 _ _ _ _ _ _ _ K1); [lia | simpl; lra | lra | rewrite E1; field].
  - apply (B32An.An_final fine_libm32 18 _ _ _ _ _ _ _ K2); [lia | simpl; lra | lra | rewrite E2; field].
Qed.
(** chi + chi^3 / 6 = 1: the universal solver stops after 4 of 50 iterations, whatever the math library *)
Lemma uni32_ex : exists chi prev : b32, B2SF chi = SpecFloat.S754_finite false 14841497 (-24) /\
  (forall L : libm, @uni_run _ (Num_B32 L) (b32_Z 1) (b32_Z 0) (b32_Z 1) (b32_Z 0) (b32_Z 1) (@default_tol _ (Num_B32 L)) 50 = Some (4%Z, chi, prev)) /\
  Rabs (B2R chi + B2R chi ^ 3 / 6 - 1) <= 5 / 1000000.
Proof.
  set (L0 := fine_libm32). set (run := fun L => @uni_run _ (Num_B32 L) (b32_Z 1) (b32_Z 0) (b32_Z 1) (b32_Z 0) (b32_Z 1) (@default_tol _ (Num_B32 L)) 50).
  set (sf := fun o : option (Z * b32 * b32) => match o with Some (i, x, y) => Some (i, B2SF x, B2SF y) | None => None end).
  assert (R : forall L, sf (run L) = Some (4%Z, SpecFloat.S754_finite false 14841497 (-24), SpecFloat.S754_finite false 14841595 (-24))) by (intro L; vm_compute; reflexivity).
  destruct (run L0) as [[[i chi] prev] |] eqn:E; [| specialize (R L0); rewrite E in R; discriminate R].
  pose proof (R L0) as R0. rewrite E in R0. cbn [sf] in R0. injection R0 as I X Y.
  exists chi, prev. split; [exact X |].
  assert (All : forall L, run L = Some (4%Z, chi, prev)).
  { intro L. pose proof (R L) as RL. destruct (run L) as [[[i' x] y] |]; [| discriminate RL]. cbn [sf] in RL. injection RL as I' X' Y'.
    rewrite I'. assert (x = chi) as -> by (apply B2SF_inj; congruence). assert (y = prev) as -> by (apply B2SF_inj; congruence). reflexivity. }
  split; [exact All |].
  destruct (fval32 _ _ _ _ X) as [Fc Vc]. assert (Bc : 8846 / 10000 <= B2R chi <= 8847 / 10000) by (rewrite Vc; unfold F2R; simpl; lra).
  destruct (int32 1 ltac:(lia)) as [_ V1]. destruct (int32 0 ltac:(lia)) as [_ V0].
  assert (Gc : good32 12 chi). { split; [exact Fc |]. apply range_between; [simpl; lra | lia]. }
  assert (Tl : is_finite (@default_tol _ (Num_B32 L0)) = true /\ B2R (@default_tol _ (Num_B32 L0)) <= 101 / 100000000) by exact (let K := B32Newton.tol_small L0 in conj (proj1 K) (proj2 (proj2 K))).
  pose proof (B32Stop.uni_solved L0 chi (b32_Z 0) 6 ltac:(lia) (good32_Z 17 0 ltac:(lia) ltac:(lia) ltac:(lia)) Gc (fine32_ok (2 * IZR (2 ^ 10)) (2 * 10) ltac:(lra))
    ltac:(rewrite V0; lra) ltac:(rewrite V0; lra) (b32_Z 1) (b32_Z 0) (b32_Z 1) (b32_Z 1) (@default_tol _ (Num_B32 L0)) prev
    (good32_Z 17 1 ltac:(lia) ltac:(lia) ltac:(lia)) ltac:(rewrite V1; lra) (good32_Z 17 0 ltac:(lia) ltac:(lia) ltac:(lia))
    (good32_Z 40 1 ltac:(lia) ltac:(lia) ltac:(lia)) (good32_Z 20 1 ltac:(lia) ltac:(lia) ltac:(lia)) ltac:(rewrite V1; lra) (proj1 Tl) 50 4 (All L0) ltac:(lia)) as [K _].
  cbv zeta in K. rewrite V1, V0 in K. destruct (uf_zero (B2R chi)) as [_ [E1 [E2 [E3 _]]]]. rewrite E1, E2, E3 in K.
  unfold uf_size in K. destruct (Req_EM_T 0 0) as [_ | Q]; [| contradiction]. rewrite Rabs_R0, Rabs_R1, sqrt_1 in K.
  replace (1 * B2R chi + 0 * (B2R chi ^ 2 / 2) + B2R chi ^ 3 / 6 - 1 * 1) with (B2R chi + B2R chi ^ 3 / 6 - 1) in K by ring.
  apply Rle_trans with (1 := K). rewrite (Rabs_pos_eq (B2R chi)) by lra. simpl INR. simpl fact. 
  assert (B2R chi ^ 3 <= 1) by (rewrite <- (pow1 3); apply pow_incr; lra). simpl (_ ^ 1). change (IZR (2 ^ 24)) with 16777216. destruct Tl as [_ Tl]. simpl INR. lra.
Qed.
(** e = 2, Nm = 2^-10, tol = 2^-16: the hyperbolic solver accepts its first guess *)
Definition p2_32 (k : Z) : b32 := binary_normalize 24 128 _ _ mode_NE 1 k false.
Definition arg32 : b32 := @n_add _ (Num_B32 fine_libm32) (p2_32 (-10)) (@n_sqrt _ (Num_B32 fine_libm32) (@n_add _ (Num_B32 fine_libm32) (@npow _ (Num_B32 fine_libm32) (p2_32 (-10)) 2) (b32_Z 1))).
Lemma hypb32_ex : exists H prev : b32, @hypb_run _ (Num_B32 fine_libm32) (p2_32 (-10)) (b32_Z 2) (p2_32 (-16)) 50 = Some (0%Z, H, prev) /\
  forall x : R, 2 * sinh x - x = / 1024 -> Rabs (B2R H - x) <= / 32768.
Proof.
  destruct (int32 2 ltac:(lia)) as [F2 V2]. assert (N10 : B2SF (p2_32 (-10)) = SpecFloat.S754_finite false 8388608 (-33)) by (vm_compute; reflexivity).
  assert (N16 : B2SF (p2_32 (-16)) = SpecFloat.S754_finite false 8388608 (-39)) by (vm_compute; reflexivity).
  assert (Y : B2SF arg32 = SpecFloat.S754_finite false 8396804 (-23)) by (vm_compute; reflexivity).
  destruct (fval32 _ _ _ _ N10) as [F10 V10]. destruct (fval32 _ _ _ _ N16) as [F16 V16]. destruct (fval32 _ _ _ _ Y) as [FY VY].
  assert (W10 : B2R (p2_32 (-10)) = / 1024) by (rewrite V10; unfold F2R; simpl; lra).
  assert (W16 : B2R (p2_32 (-16)) = / 65536) by (rewrite V16; unfold F2R; simpl; lra).
  assert (G : @hypb_guess _ (Num_B32 fine_libm32) (p2_32 (-10)) (b32_Z 2) = fine32 (ln (B2R arg32))).
  { change (fine32 (ln (B2R (@n_add _ (Num_B32 fine_libm32) (@n_div _ (Num_B32 fine_libm32) (@n_mul _ (Num_B32 fine_libm32) (b32_Z 2) (p2_32 (-10))) (b32_Z 2))
      (@n_sqrt _ (Num_B32 fine_libm32) (@n_add _ (Num_B32 fine_libm32) (@npow _ (Num_B32 fine_libm32) (@n_div _ (Num_B32 fine_libm32) (@n_mul _ (Num_B32 fine_libm32) (b32_Z 2) (p2_32 (-10))) (b32_Z 2)) 2) (b32_Z 1)))))) = fine32 (ln (B2R arg32))).
    assert (Q : @n_div _ (Num_B32 fine_libm32) (@n_mul _ (Num_B32 fine_libm32) (b32_Z 2) (p2_32 (-10))) (b32_Z 2) = p2_32 (-10)) by (apply B2SF_inj; vm_compute; reflexivity).
    rewrite Q. reflexivity. }
  set (y := B2R arg32) in *. set (H := fine32 (ln y)) in *.
  assert (By : y = 8396804 / 8388608) by (rewrite VY; unfold F2R; simpl; lra).
  assert (Py : 0 < y) by (rewrite By; lra).
  assert (L1 : sinh (ln y) = (y - / y) / 2 /\ cosh (ln y) = (y + / y) / 2) by (unfold sinh, cosh; rewrite exp_Ropp, exp_ln by exact Py; split; reflexivity).
  destruct L1 as [LS LC].
  assert (S1 : 9765 / 10000000 <= sinh (ln y) <= 9767 / 10000000) by (rewrite LS, By; lra).
  assert (S2 : cosh (ln y) <= 10001 / 10000) by (rewrite LC, By; lra).
  assert (P0 : 0 <= ln y). { rewrite <- ln_1. apply ln_le'; [lra | rewrite By; lra]. }
  destruct (sinh_between (ln y) P0) as [S3 S4].
  assert (B0 : 9764 / 10000000 <= ln y <= 9767 / 10000000) by (split; [nra | lra]).
  destruct (fine32_err (ln y) 1 ltac:(rewrite Rabs_pos_eq; lra) ltac:(split; [lra | apply IZR_le; lia])) as [FH EH]. fold H in FH, EH.
  rewrite Rmult_1_r in EH. change (IZR (2 ^ 24)) with 16777216 in EH. simpl INR in EH. apply Rabs_le_inv in EH.
  assert (BH : 9760 / 10000000 <= B2R H <= 9775 / 10000000) by lra.
  destruct (sinh_between (B2R H) ltac:(lra)) as [S5 S6].
  assert (C6 : cosh (B2R H) <= 10001 / 10000 * (501 / 500)).
  { apply Rle_trans with (501 / 500 * cosh (ln y)); [apply cosh_near; apply Rabs_le; lra | lra]. }
  assert (Bs : 9760 / 10000000 <= sinh (B2R H) <= 9800 / 10000000) by (split; [lra | nra]).
  assert (GH : good32 12 H) by (split; [exact FH | apply range_between; [simpl; lra | lia]]).
  assert (GN : good32 40 (p2_32 (-10))) by (split; [exact F10 | rewrite W10; apply range_between; [simpl; lra | lia]]).
  assert (BH' : Rabs (B2R H) <= 10) by (rewrite Rabs_pos_eq; lra).
  pose proof (good32_Z 17 2 ltac:(lia) ltac:(lia) ltac:(lia)) as G2. assert (P2 : 0 < B2R (b32_Z 2)) by (rewrite V2; lra).
  pose proof (fine32_ok (2 * IZR (2 ^ 10)) (2 * 10) ltac:(lra)) as TL.
  pose proof (B32Stop.hypb_ok fine_libm32 H (b32_Z 2) 6 ltac:(lia) GH BH' G2 P2 TL _ GN) as [FO EO].
  rewrite V2, W10, (Rabs_pos_eq (B2R H)), (Rabs_pos_eq (/ 1024)) in EO by lra. change (IZR (2 ^ 24)) with 16777216 in EO. simpl INR in EO.
  pose proof (sinh_lip (ln y) (B2R H) 2 ltac:(intros z Z; apply Rle_trans with (501 / 500 * cosh (ln y)); [apply cosh_near; apply Rabs_le; unfold Rmin, Rmax in Z; destruct (Rle_dec (ln y) (B2R H)); lra | lra])) as SL.
  assert (DH : Rabs (ln y - B2R H) <= 7 / 16777216) by (apply Rabs_le; lra).
  assert (SL' : Rabs (sinh (ln y) - sinh (B2R H)) <= 14 / 16777216) by lra. apply Rabs_le_inv in SL'.
  assert (S1' : / 1024 - / 8000000 <= sinh (ln y) <= / 1024 + / 8000000) by (rewrite LS, By; lra).
  assert (S2' : cosh (ln y) <= 1 + / 1000000) by (rewrite LC, By; lra).
  assert (LB : sinh (ln y) - / 500000000 <= ln y) by nra.
  assert (RS : Rabs (B2R (@kepler_equ_hypb _ (Num_B32 fine_libm32) H (b32_Z 2) (p2_32 (-10)))) <= / 65536).
  { apply Rabs_le. apply Rabs_le_inv in EO. lra. }
  assert (NE : @exceeds _ (Num_B32 fine_libm32) (@kepler_equ_hypb _ (Num_B32 fine_libm32) H (b32_Z 2) (p2_32 (-10))) (p2_32 (-16)) = false).
  { match goal with |- @exceeds _ _ ?k _ = _ => change (Bltb (p2_32 (-16)) (Babs k) = false) end.
    rewrite B32Lib.lt_exact by (rewrite ?is_finite_Babs; assumption). rewrite B2R_Babs, W16. apply Rlt_bool_false. exact RS. }
  destruct (@hypb_run_char _ (Num_B32 fine_libm32) (p2_32 (-10)) (b32_Z 2) (p2_32 (-16)) 50) as [k [_ [E [J _]]]]. cbv zeta in E, J.
  destruct k as [| k]; [| exfalso; specialize (J 0%nat ltac:(lia)); cbn [iterate] in J; rewrite G in J; rewrite NE in J; discriminate J].
  cbn [iterate] in E. rewrite G in E. eexists H, _. split; [exact E |].
  intros x Hx. pose proof (B32Stop.hypb_solved fine_libm32 H (b32_Z 2) 6 ltac:(lia) GH BH' G2 P2 TL _ _ _ GN F16 50 0 E ltac:(lia)) as [_ K].
  cbv zeta in K. rewrite V2, W10, W16 in K. specialize (K x Hx). replace (2 - 1) with 1 in K by ring. rewrite Rmult_1_l in K.
  apply Rle_trans with (1 := K). rewrite (Rabs_pos_eq (B2R H)), (Rabs_pos_eq (/ 1024)) by lra. change (IZR (2 ^ 24)) with 16777216. simpl INR. lra.
Qed.
(** the state one unit of universal anomaly after x = (1, 0, 0), v = (0, 2, 0) with mu = 2, a parabola *)
Lemma state32_ex (L : libm) : trig32 L 6 (2 * IZR (2 ^ 10)) (2 * 10) ->
  let N := Num_B32 L in let s := @state_at_chi _ N (b32_Z 1) (b32_Z 0) (b32_Z 0) (b32_Z 1) (mk3 (b32_Z 1) (b32_Z 0) (b32_Z 0)) (mk3 (b32_Z 0) (b32_Z 2) (b32_Z 0)) (b32_Z 2) in
  off32v 27 (3 / 2 + 2 / sqrt 2) (fst s) (mk3 (1 / 2) (2 / sqrt 2) 0) /\
  off32v 48 (2 / 3 * sqrt 2 + 8 / 3) (snd s) (mk3 (- (2 / 3 * sqrt 2)) (4 / 3) 0).
Proof.
  intro TL. cbv zeta. destruct (int32 1 ltac:(lia)) as [F1 V1]. destruct (int32 0 ltac:(lia)) as [F0 V0]. destruct (int32 2 ltac:(lia)) as [F2 V2].
  assert (S2 : 0 < sqrt 2) by (apply sqrt_lt_R0; lra). 
  assert (N1 : vnorm (mk3 1 0 0) = 1) by (unfold vnorm, dot; cbn [c0 c1 c2]; replace (1 * 1 + 0 * 0 + 0 * 0) with 1 by ring; apply sqrt_1).
  assert (N2 : vnorm (mk3 0 2 0) = 2) by (unfold vnorm, dot; cbn [c0 c1 c2]; replace (0 * 0 + 2 * 2 + 0 * 0) with (2 * 2) by ring; apply sqrt_square; lra).
  pose proof (B32Uvi.state_ok L (b32_Z 1) (b32_Z 0) 6 ltac:(lia) (good32_Z 17 0 ltac:(lia) ltac:(lia) ltac:(lia)) (good32_Z 12 1 ltac:(lia) ltac:(lia) ltac:(lia)) TL
    ltac:(rewrite V0; lra) ltac:(rewrite V0; lra) (b32_Z 1) (b32_Z 0) (b32_Z 1) (b32_Z 2) (good32_Z 17 1 ltac:(lia) ltac:(lia) ltac:(lia)) ltac:(rewrite V1; lra)
    (good32_Z 17 0 ltac:(lia) ltac:(lia) ltac:(lia)) (good32_Z 40 1 ltac:(lia) ltac:(lia) ltac:(lia)) (good32_Z 20 2 ltac:(lia) ltac:(lia) ltac:(lia)) ltac:(rewrite V2; lra)) as K.
  rewrite V1, V0, V2 in K. unfold lagrange_state in K. destruct (uf_zero 1) as [E0 [E1 [E2 _]]]. rewrite E0, E1, E2 in K.
  assert (Z : forall n, uf_size n 1 0 = / INR (fact n)).
  { intro n. unfold uf_size. destruct (Req_EM_T 0 0) as [_ | Q]; [| contradiction]. rewrite Rabs_R1, pow1. unfold Rdiv. apply Rmult_1_l. }
  rewrite !Z, Rabs_R0 in K. simpl fact in K. simpl INR in K. simpl pow in K.
  specialize (K ltac:(apply range_between; [simpl; lra | lia]) ltac:(lra) ltac:(simpl; lra) (mk3 (b32_Z 1) (b32_Z 0) (b32_Z 0)) (mk3 (b32_Z 0) (b32_Z 2) (b32_Z 0))).
  unfold real32 in K; cbn [c0 c1 c2] in K. rewrite V1, V0, V2 in K.
  assert (G1 : good32v 17 (mk3 (b32_Z 1) (b32_Z 0) (b32_Z 0))).
  { split; [cbn [c0 c1 c2]; auto |]. unfold real32; cbn [c0 c1 c2]. rewrite V1, V0, N1. apply range_between; [simpl; lra | lia]. }
  assert (G2 : good32v 8 (mk3 (b32_Z 0) (b32_Z 2) (b32_Z 0))).
  { split; [cbn [c0 c1 c2]; auto |]. unfold real32; cbn [c0 c1 c2]. rewrite V2, V0, N2. apply range_between; [simpl; lra | lia]. }
  specialize (K G1 G2). cbv zeta in K. rewrite N1, N2 in K. destruct K as [K1 K2].
  unfold vplus, smul in K1, K2; cbn [c0 c1 c2 fst snd] in K1, K2.
  assert (T : forall C D m n g v w, off32v C m g v -> C = D -> m = n -> v = w -> off32v D n g w) by (intros; subst; assumption).
  split.
  - apply (T _ _ _ _ _ _ _ K1); [ring | field; lra | f_equal; field; lra].
  - apply (T _ _ _ _ _ _ _ K2); [ring | field; lra | f_equal; field; lra].
Qed.
