(** * B64Cancel: rounding errors of the formulas that cancel, in double precision. *)
From Coq Require Import ZArith Reals Lra Lia Psatz Bool List.
From Flocq Require Import Core IEEE754.BinarySingleNaN.
From Verif Require Import Num NumB64 SpecFl RelLib OrbIntegrals KepEqu Uniformulas B64Lib B64Acc B64Rel B64Closed B64Grav.
Import ListNotations.
Local Open Scope R_scope.

(** dividing by a difference: the condition number [m / |v|] appears *)
Lemma over_difference (k : nat) (n d : b64) (u v C m : R) : (k <= 64)%nat -> Fl k n u -> Ab C m d v ->
  1 <= C -> Rabs v <= m -> v <> 0 -> 4 * C * eps * m <= Rabs v -> in_range 1000 (u / v) ->
  is_finite (b64_div n d) = true /\
  close ((2 * C + 2 * INR k + 4) * (m / Rabs v) * eps) (B2R (b64_div n d)) (u / v).
Proof.
  intros K F [Fd Ed] HC M V0 S R1. pose proof eps_range as P. pose proof (pos_INR k) as Kp. pose proof (le_64 k K) as K64.
  destruct (Fl_close k n u K F) as [Fn En]. unfold close in En.
  assert (Vp : 0 < Rabs v) by (apply Rabs_pos_lt; exact V0).
  set (kap := m / Rabs v).
  assert (Kap : 1 <= kap) by (unfold kap; apply Rmult_le_reg_r with (Rabs v); [exact Vp | unfold Rdiv; rewrite Rmult_assoc, Rinv_l by lra; lra]).
  set (dl := C * eps * kap).
  assert (D0 : 0 <= dl <= / 4).
  { split; [unfold dl; apply Rmult_le_pos; [apply Rmult_le_pos; lra | lra] |].
    unfold dl, kap. apply Rmult_le_reg_r with (Rabs v); [exact Vp |].
    replace (C * eps * (m / Rabs v) * Rabs v) with (C * eps * m) by (field; lra). lra. }
  set (b := (B2R d - v) / v).
  assert (Hb : Rabs b <= dl).
  { unfold b, Rdiv. rewrite Rabs_mult, Rabs_inv. apply Rmult_le_reg_r with (Rabs v); [exact Vp |].
    rewrite Rmult_assoc, Rinv_l, Rmult_1_r by lra. unfold dl, kap.
    replace (C * eps * (m / Rabs v) * Rabs v) with (C * eps * m) by (field; lra). exact Ed. }
  assert (Ed' : B2R d = v * (1 + b)) by (unfold b; field; exact V0).
  apply Rabs_le_inv in Hb.
  assert (D1 : B2R d <> 0) by (rewrite Ed'; apply Rmult_integral_contrapositive_currified; lra).
  set (th := (INR k + 1) * eps) in *.
  assert (Th : 0 <= th <= / 1000) by (unfold th, eps in *; split; nra).
  assert (E : Rabs (B2R n / B2R d - u / v) <= 4 / 3 * (th + dl) * Rabs (u / v)).
  { assert (Q : B2R n / B2R d - u / v = ((B2R n - u) - u * b) * (/ v * / (1 + b))).
    { rewrite Ed'. field. split; [lra | exact V0]. }
    rewrite Q, Rabs_mult, Rabs_mult, !Rabs_inv, (Rabs_pos_eq (1 + b)) by lra.
    replace (Rabs (u / v)) with (Rabs u * / Rabs v) by (unfold Rdiv; rewrite Rabs_mult, Rabs_inv; reflexivity).
    assert (I : 0 < / (1 + b) <= 4 / 3).
    { split; [apply Rinv_0_lt_compat; lra |]. replace (4 / 3) with (/ (3 / 4)) by field. apply Rinv_le_contravar; lra. }
    assert (T : Rabs (B2R n - u - u * b) <= (th + dl) * Rabs u).
    { unfold Rminus at 1. apply Rle_trans with (1 := Rabs_triang _ _). rewrite Rabs_Ropp, (Rabs_mult u b).
      assert (Rabs u * Rabs b <= Rabs u * dl).
      { apply Rmult_le_compat_l; [apply Rabs_pos |]. apply Rabs_le. lra. } lra. }
    assert (Iv : 0 < / Rabs v) by (apply Rinv_0_lt_compat; exact Vp).
    apply Rle_trans with ((th + dl) * Rabs u * (/ Rabs v * (4 / 3))).
    - apply Rmult_le_compat; [apply Rabs_pos | apply Rmult_le_pos; lra | exact T |].
      apply Rmult_le_compat_l; lra.
    - right. ring. }
  set (q := u / v) in *.
  assert (Q0 : 0 <= Rabs q) by apply Rabs_pos.
  set (C' := 4 / 3 * (INR k + 1 + C * kap)).
  assert (Ce : C' * eps = 4 / 3 * (th + dl)) by (unfold C', th, dl; ring).
  assert (CK : 1 <= C * kap) by nra.
  assert (Cl : 0 <= C' <= 5000000000000000).
  { split; [unfold C'; lra |]. apply Rmult_le_reg_r with eps; [lra |]. rewrite Ce. unfold eps. lra. }
  assert (R2 : in_range 1000 (Rabs q)).
  { destruct R1 as [R1 | R1]; [left; rewrite R1; apply Rabs_R0 | right; rewrite Rabs_Rabsolu; exact R1]. }
  destruct R2 as [R2 | R2].
  - assert (Uq : q = 0) by (destruct (Req_dec q 0) as [K0 | K0]; [exact K0 | pose proof (Rabs_pos_lt q K0); lra]).
    assert (U0 : u = 0) by (unfold q in Uq; replace u with (u / v * v) by (field; exact V0); rewrite Uq; ring).
    assert (N0 : B2R n = 0).
    { rewrite U0, Rabs_R0, Rmult_0_r, Rminus_0_r in En.
      destruct (Req_dec (B2R n) 0) as [K0 | K0]; [exact K0 | pose proof (Rabs_pos_lt _ K0); lra]. }
    destruct (div_exact n d Fn D1) as [G1 G2].
    { rewrite N0. unfold Rdiv. rewrite Rmult_0_l, Rabs_R0. apply IZR_le. lia. }
    split; [exact G2 |]. unfold close. rewrite G1, N0, Uq. unfold Rdiv at 1. rewrite Rmult_0_l, (rnd_id 0 F64_0).
    rewrite Rminus_0_r, Rabs_R0. lra.
  - rewrite Rabs_Rabsolu in R2.
    assert (Sq : Rabs (B2R n / B2R d) <= 2 * Rabs q).
    { replace (B2R n / B2R d) with (q + (B2R n / B2R d - q)) by ring.
      apply Rle_trans with (1 := Rabs_triang _ _).
      assert (4 / 3 * (th + dl) * Rabs q <= 1 * Rabs q) by (apply Rmult_le_compat_r; lra). lra. }
    destruct (div_exact n d Fn D1) as [G1 G2].
    { apply Rle_trans with (1 := Sq). apply Rle_trans with (2 * IZR (2 ^ 1000)); [lra |].
      rewrite <- mult_IZR. apply IZR_le. lia. }
    split; [exact G2 |]. unfold close. rewrite G1.
    replace (rnd (B2R n / B2R d) - q) with ((rnd (B2R n / B2R d) - B2R n / B2R d) + (B2R n / B2R d - q)) by ring.
    apply Rle_trans with (1 := Rabs_triang _ _). pose proof (rnd_abs (B2R n / B2R d)) as W.
    assert (T : / IZR (2 ^ 1074) <= / 900 * eps * Rabs q).
    { apply Rle_trans with (/ 900 * eps * / IZR (2 ^ 1000)); [unfold eps; simpl; lra |].
      apply Rmult_le_compat_l; lra. }
    assert (W2 : eps * Rabs (B2R n / B2R d) <= eps * (2 * Rabs q)) by (apply Rmult_le_compat_l; lra).
    apply Rle_trans with ((4 / 3 * (th + dl) + 2.01 * eps) * Rabs q); [lra |].
    apply Rmult_le_compat_r; [exact Q0 |]. rewrite <- Ce. rewrite <- Rmult_plus_distr_r.
    apply Rmult_le_compat_r; [lra |]. unfold C'.
    assert (INR k <= INR k * kap) by nra. nra.
Qed.

Section Cancel.
Variable L : libm64.
Let NB := Num_B64 L.

(** 2/r - v^2/mu *)
Lemma semimajor_close (r v mu : b64) :
  is_finite r = true -> is_finite v = true -> is_finite mu = true -> 0 < B2R r -> 0 < B2R mu ->
  let A := 2 / B2R r in let B := B2R v ^ 2 / B2R mu in
  Forall (in_range 1020) [A; B2R v ^ 2; B] -> in_range 1000 (A + B) -> in_range 1000 (1 / (A - B)) ->
  A <> B -> 28 * eps * (A + B) <= Rabs (A - B) ->
  let a := @semimajor_axis _ NB r v mu in
  is_finite a = true /\ close (18 * ((A + B) / Rabs (A - B)) * eps) (B2R a) (1 / (A - B)).
Proof.
  intros Fr Fv Fm Pr Pm A B R0 R1 R2 Z S a.
  inversion_clear R0 as [| ? ? H1 T]. inversion_clear T as [| ? ? H2 U]. inversion_clear U as [| ? ? H3 T].
  assert (PA : 0 < A) by (apply Rdiv_lt_0_compat; lra).
  assert (PB : 0 <= B) by (apply Rmult_le_pos; [apply pow2_ge_0 | apply Rlt_le, Rinv_0_lt_compat, Pm]).
  assert (FA : Ab 2 (A + B) (b64_div (b64_Z 2) r) A).
  { pose proof (Ab_of_Fl 1 1 (A + B) (b64_div (b64_Z 2) r) A ltac:(lia)) as H.
    replace ((INR 1 + 1) * 1) with 2 in H by (rewrite INR_IZR_INZ; simpl; lra). apply H.
    - apply (Fl_div 0 0); [lia | lra | apply Fl_int; lia | apply Fl_exact; exact Fr | exact H1].
    - rewrite Rabs_pos_eq; lra. }
  assert (FB : Ab 3 (A + B) (b64_div (b64_mul v v) mu) B).
  { pose proof (Ab_of_Fl 2 1 (A + B) (b64_div (b64_mul v v) mu) B ltac:(lia)) as H.
    replace ((INR 2 + 1) * 1) with 3 in H by (rewrite INR_IZR_INZ; simpl; lra). apply H.
    - apply (Fl_div 1 0); [lia | lra | | apply Fl_exact; exact Fm | exact H3].
      apply (Fl_sq 0); [lia | apply Fl_exact; exact Fv | exact H2].
    - rewrite Rabs_pos_eq; lra. }
  assert (AB : Rabs (A - B) <= A + B) by (apply Rabs_le; lra).
  assert (FD : Ab 7 (A + B) (b64_sub (b64_div (b64_Z 2) r) (b64_div (b64_mul v v) mu)) (A - B)).
  { apply (Ab_mono (2 + 3 + 1 + 1)); [lra | lra |].
    apply Ab_sub; try lra; [exact FA | exact FB | exact R1]. }
  destruct (over_difference 0 (b64_Z 1) _ 1 (A - B) 7 (A + B) ltac:(lia) (Fl_int 1 ltac:(lia)) FD ltac:(lra) AB
    ltac:(lra) ltac:(lra) R2) as [G1 G2].
  split; [exact G1 |]. replace (2 * 7 + 2 * INR 0 + 4) with 18 in G2 by (simpl; ring). exact G2.
Qed.

(** 1 - e^2 *)
Lemma one_minus_sq (e : b64) : is_finite e = true -> in_range 450 (B2R e) ->
  Ab 4 (1 + B2R e ^ 2) (b64_sub (b64_Z 1) (b64_mul e e)) (1 - B2R e ^ 2).
Proof.
  intros Fe R1. pose proof (pow2_ge_0 (B2R e)) as E.
  assert (R2 : in_range 900 (B2R e ^ 2)) by exact (range_sq 450 (B2R e) ltac:(lia) R1).
  assert (R3 : in_range 901 (1 + B2R e ^ 2)).
  { apply (range_sum 900); try lia; try lra; [| exact R2]. apply range_between; [| lia].
    pose proof (two_pow 900 ltac:(lia)). pose proof (two_pow_inv 900 ltac:(lia)). lra. }
  apply (Ab_mono (0 + 2 + 1 + 1)); [lra | lra |].
  apply Ab_sub; try lra.
  - destruct (Ab_int 1 ltac:(lia)) as [F H]. split; [exact F |]. rewrite !Rmult_0_l in *. exact H.
  - pose proof (Ab_of_Fl 1 1 (1 + B2R e ^ 2) (b64_mul e e) (B2R e ^ 2) ltac:(lia)) as H.
    replace ((INR 1 + 1) * 1) with 2 in H by (rewrite INR_IZR_INZ; simpl; lra). apply H.
    + apply (Fl_sq 0); [lia | apply Fl_exact; exact Fe |]. apply (range_mono 900 1020); [lia | exact R2].
    + rewrite Rabs_pos_eq; lra.
  - apply Rabs_le. lra.
  - apply (range_mono 901 1000); [lia | exact R3].
Qed.

Lemma semipara_close (a e : b64) : is_finite a = true -> is_finite e = true -> in_range 450 (B2R e) ->
  in_range 1000 (B2R a * (1 + B2R e ^ 2)) ->
  let p := @semipara_from_ae _ NB a e in
  is_finite p = true /\
  Rabs (B2R p - B2R a * (1 - B2R e ^ 2)) <= 7 * eps * (Rabs (B2R a) * (1 + B2R e ^ 2)).
Proof.
  intros Fa Fe R1 R2 p. pose proof (pow2_ge_0 (B2R e)) as E.
  destruct (times 0 a _ (B2R a) (1 - B2R e ^ 2) 4 1 (1 + B2R e ^ 2) ltac:(lia) (Fl_exact a Fa) (one_minus_sq e Fe R1)
    ltac:(lra) ltac:(lra) ltac:(lra) ltac:(apply Rabs_le; lra) R2) as [G1 G2].
  split; [exact G1 |]. apply Rle_trans with (1 := G2). right. simpl. ring.
Qed.

Lemma a_from_pe_close (p e : b64) : is_finite p = true -> is_finite e = true -> in_range 450 (B2R e) ->
  B2R e ^ 2 <> 1 -> 16 * eps * (1 + B2R e ^ 2) <= Rabs (1 - B2R e ^ 2) ->
  in_range 1000 (B2R p / (1 - B2R e ^ 2)) ->
  let a := @a_from_pe _ NB p e in
  is_finite a = true /\
  close (12 * ((1 + B2R e ^ 2) / Rabs (1 - B2R e ^ 2)) * eps) (B2R a) (B2R p / (1 - B2R e ^ 2)).
Proof.
  intros Fp Fe R1 Z S R2 a. pose proof (pow2_ge_0 (B2R e)) as E.
  destruct (over_difference 0 p _ (B2R p) (1 - B2R e ^ 2) 4 (1 + B2R e ^ 2) ltac:(lia) (Fl_exact p Fp)
    (one_minus_sq e Fe R1) ltac:(lra) ltac:(apply Rabs_le; lra) ltac:(lra) ltac:(lra) R2) as [G1 G2].
  split; [exact G1 |]. replace (2 * 4 + 2 * INR 0 + 4) with 12 in G2 by (simpl; ring). exact G2.
Qed.

(** p / (1 + e cos f) with a cosine correct to one unit *)
Lemma orbit_close (p e f : b64) : is_finite p = true -> is_finite e = true -> 0 <= B2R e -> in_range 900 (B2R e) ->
  is_finite (d_cos L f) = true -> Rabs (B2R (d_cos L f) - cos (B2R f)) <= eps ->
  let D := 1 + B2R e * cos (B2R f) in
  20 * eps * (1 + B2R e) <= Rabs D -> D <> 0 -> in_range 1000 (B2R p / D) ->
  let r := @equ_of_orbit _ NB p e f in
  is_finite r = true /\ close (14 * ((1 + B2R e) / Rabs D) * eps) (B2R r) (B2R p / D).
Proof.
  intros Fp Fe E R1 Fc Ec D S Z R2 r. pose proof (COS_bound (B2R f)) as CB.
  assert (R3 : in_range 901 (1 + B2R e)).
  { apply (range_sum 900); try lia; try lra; [| exact R1]. apply range_between; [| lia].
    pose proof (two_pow 900 ltac:(lia)). pose proof (two_pow_inv 900 ltac:(lia)). lra. }
  assert (R3' : in_range 1000 (1 + B2R e)) by (apply (range_mono 901 1000); [lia | exact R3]).
  assert (CC : Rabs (cos (B2R f)) <= 1) by (apply Rabs_le; lra).
  assert (M : Ab 3 (B2R e) (b64_mul e (d_cos L f)) (B2R e * cos (B2R f))).
  { pose proof (Ab_mul 0 1 1 1 (B2R e) 1 e (d_cos L f) (B2R e) (cos (B2R f)) ltac:(lra) ltac:(lra) ltac:(lra)
      ltac:(lra) E ltac:(lra)) as H.
    rewrite Rmult_1_r in H.
    apply (Ab_mono (1 + 1 * 0 + 1 + 1)); [exact E | lra |]. rewrite Rmult_1_r in H. apply H.
    - split; [exact Fe |]. unfold Rminus. rewrite Rplus_opp_r, Rabs_R0. lra.
    - split; [exact Fc |]. lra.
    - rewrite Rabs_pos_eq; lra.
    - lra.
    - apply (range_mono 900 1000); [lia | exact R1]. }
  assert (MD : Rabs (1 + B2R e * cos (B2R f)) <= 1 + B2R e).
  { apply Rabs_le. split; nra. }
  assert (Q : Ab 5 (1 + B2R e) (b64_add (b64_Z 1) (b64_mul e (d_cos L f))) D).
  { apply (Ab_mono (0 + 3 + 1 + 1)); [lra | lra |]. unfold D.
    apply Ab_add; try lra.
    - destruct (Ab_int 1 ltac:(lia)) as [F H]. split; [exact F |]. rewrite !Rmult_0_l in *. exact H.
    - destruct M as [F H]. split; [exact F |]. apply Rle_trans with (1 := H).
      apply Rmult_le_compat_l; [pose proof eps_range; lra | lra].
    - exact R3'. }
  destruct (over_difference 0 p _ (B2R p) D 5 (1 + B2R e) ltac:(lia) (Fl_exact p Fp) Q ltac:(lra) MD Z ltac:(lra) R2)
    as [G1 G2].
  split; [exact G1 |]. replace (2 * 5 + 2 * INR 0 + 4) with 14 in G2 by (simpl; ring). exact G2.
Qed.

(** one component of the cross product *)
Lemma cross_close (a b c d : b64) : is_finite a = true -> is_finite b = true -> is_finite c = true -> is_finite d = true ->
  in_range 1000 (B2R a * B2R b) -> in_range 1000 (B2R c * B2R d) ->
  in_range 1000 (Rabs (B2R a * B2R b) + Rabs (B2R c * B2R d)) ->
  let h := b64_sub (b64_mul a b) (b64_mul c d) in
  is_finite h = true /\
  Rabs (B2R h - (B2R a * B2R b - B2R c * B2R d)) <= 6 * eps * (Rabs (B2R a * B2R b) + Rabs (B2R c * B2R d)).
Proof.
  intros Fa Fb Fc Fd R1 R2 R3 h.
  set (m := Rabs (B2R a * B2R b) + Rabs (B2R c * B2R d)) in *.
  pose proof (Rabs_pos (B2R a * B2R b)) as P1. pose proof (Rabs_pos (B2R c * B2R d)) as P2.
  assert (A : forall x y : b64, is_finite x = true -> is_finite y = true -> in_range 1000 (B2R x * B2R y) ->
    Rabs (B2R x * B2R y) <= m -> Ab 2 m (b64_mul x y) (B2R x * B2R y)).
  { intros x y F1 F2 R4 H. pose proof (Ab_of_Fl 1 1 m (b64_mul x y) (B2R x * B2R y) ltac:(lia)) as Q.
    replace ((INR 1 + 1) * 1) with 2 in Q by (rewrite INR_IZR_INZ; simpl; lra). apply Q; [| lra].
    apply (Fl_mul 0 0); [lia | apply Fl_exact; exact F1 | apply Fl_exact; exact F2 |].
    apply (range_mono 1000 1020); [lia | exact R4]. }
  assert (Q : Ab 6 m h (B2R a * B2R b - B2R c * B2R d)).
  { apply (Ab_mono (2 + 2 + 1 + 1)); [unfold m; lra | lra |].
    apply Ab_sub; try lra; [unfold m; lra | apply A; auto; unfold m; lra | apply A; auto; unfold m; lra | | exact R3].
    unfold Rminus. apply Rle_trans with (1 := Rabs_triang _ _). rewrite Rabs_Ropp. unfold m. lra. }
  exact Q.
Qed.

Lemma momentum_close (p v : V3 b64) :
  Forall (fun x => is_finite x = true) [c0 p; c1 p; c2 p; c0 v; c1 v; c2 v] ->
  Forall (in_range 450) (map B2R [c0 p; c1 p; c2 p; c0 v; c1 v; c2 v]) ->
  let h := @angular_momentum _ NB p v in
  let err a b c d g := is_finite g = true /\
    Rabs (B2R g - (B2R a * B2R b - B2R c * B2R d)) <= 6 * eps * (Rabs (B2R a * B2R b) + Rabs (B2R c * B2R d)) in
  err (c1 p) (c2 v) (c2 p) (c1 v) (c0 h) /\ err (c2 p) (c0 v) (c0 p) (c2 v) (c1 h) /\
  err (c0 p) (c1 v) (c1 p) (c0 v) (c2 h).
Proof.
  intros F R1 h err. rewrite Forall_forall in F, R1.
  assert (P : forall x y, In x [c0 p; c1 p; c2 p; c0 v; c1 v; c2 v] -> In y [c0 p; c1 p; c2 p; c0 v; c1 v; c2 v] ->
    in_range 900 (B2R x * B2R y)).
  { intros x y Hx Hy. apply (range_mul 450 450); try lia; apply R1; apply in_map; assumption. }
  assert (P' : forall x y, In x [c0 p; c1 p; c2 p; c0 v; c1 v; c2 v] -> In y [c0 p; c1 p; c2 p; c0 v; c1 v; c2 v] ->
    in_range 900 (Rabs (B2R x * B2R y))).
  { intros x y Hx Hy. destruct (P x y Hx Hy) as [K | K]; [left; rewrite K; apply Rabs_R0 | right; rewrite Rabs_Rabsolu; exact K]. }
  assert (G : forall a b c d, In a [c0 p; c1 p; c2 p; c0 v; c1 v; c2 v] -> In b [c0 p; c1 p; c2 p; c0 v; c1 v; c2 v] ->
    In c [c0 p; c1 p; c2 p; c0 v; c1 v; c2 v] -> In d [c0 p; c1 p; c2 p; c0 v; c1 v; c2 v] ->
    err a b c d (b64_sub (b64_mul a b) (b64_mul c d))).
  { intros a b c d Ha Hb Hc Hd. apply cross_close; auto.
    - apply (range_mono 900 1000); [lia | auto].
    - apply (range_mono 900 1000); [lia | auto].
    - apply (range_mono 901 1000); [lia |]. apply (range_sum 900); try lia; try apply Rabs_pos; auto. }
  split; [| split]; apply G; simpl; tauto.
Qed.
End Cancel.
