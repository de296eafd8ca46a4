(** * FlatExamples: an exactly parabolic state that [kepler] moves along a straight line (proofs for C105, C106) *)
From Coq Require Import ZArith Reals Lra Lia Psatz Bool List.
From Coquelicot Require Import Coquelicot.
From Flocq Require Import Core IEEE754.BinarySingleNaN.
From Verif Require Import Num NumB32 NumB64 NumR Spec SpecFl SpecFl32 SpecFl64 SpecFlV SpecTiny RLib RelLib UfReal BackReal GeoExamples UviExamples.
From Verif Require Import OrbIntegrals Uniformulas Lagrange KepEqu StateTrans PropKepler.
From Verif Require Import LoopFacts.
From Verif Require B64Back B32Back.
Import ListNotations.
Local Open Scope R_scope.

(** ** Where the true motion is: r0 = (10, 0, 0), v0 = (1, 1, 0), mu = 10, t = 2325 / 512 *)
Lemma true_parabola : parabolic 10 (mk3 10 0 0) (mk3 1 1 0) /\
  flows_to 10 (2325 / 512) (mk3 10 0 0, mk3 1 1 0) (mk3 (55 / 4) (285 / 64) 0, mk3 (128 / 185) (176 / 185) 0).
Proof.
  assert (X : vnorm (mk3 10 0 0) = 10) by (unfold vnorm, dot; cbn [c0 c1 c2]; replace (10 * 10 + 0 * 0 + 0 * 0) with (10 * 10) by ring; apply sqrt_square; lra).
  assert (V : vnorm (mk3 1 1 0) ^ 2 = 2) by (unfold vnorm; rewrite pow2_sqrt; unfold dot; cbn [c0 c1 c2]; lra).
  split; [unfold parabolic; rewrite X; unfold dot; cbn [c0 c1 c2]; lra |].
  assert (Q : 0 < sqrt 10) by (apply sqrt_lt_R0; lra). pose proof (sqrt_sqrt 10 ltac:(lra)) as QQ.
  assert (Hc : cross (mk3 10 0 0) (mk3 1 1 0) <> vzero) by (unfold cross, vzero; cbn [c0 c1 c2]; intro H; injection H; intros; lra).
  pose proof (lagrange_flow 10 (3 / 8 * sqrt 10) (2325 / 512) (mk3 10 0 0) (mk3 1 1 0) ltac:(lra) Hc) as K. cbv zeta in K.
  rewrite X, V in K. replace (2 / 10 - 2 / 10) with 0 in K by field.
  set (s := dot (mk3 10 0 0) (mk3 1 1 0) / sqrt 10) in *. assert (Es : s = sqrt 10).
  { unfold s, dot. cbn [c0 c1 c2]. apply Rmult_eq_reg_r with (sqrt 10); [| lra]. rewrite QQ. field. lra. }
  rewrite Es in K. destruct (uf_zero (3 / 8 * sqrt 10)) as [E0 [E1 [E2 [E3 _]]]].
  assert (T : uni_lhs 0 10 (sqrt 10) (3 / 8 * sqrt 10) = sqrt 10 * (2325 / 512)).
  { unfold uni_lhs. rewrite E1, E2, E3.
    replace ((3 / 8 * sqrt 10) ^ 2) with (9 / 64 * (sqrt 10 * sqrt 10)) by field. replace ((3 / 8 * sqrt 10) ^ 3) with (27 / 512 * (sqrt 10 * sqrt 10) * sqrt 10) by field.
    rewrite QQ. field. }
  destruct (K T) as [F _].
  replace (mk3 (55 / 4) (285 / 64) 0, mk3 (128 / 185) (176 / 185) 0) with (lagrange_state (3 / 8 * sqrt 10) 0 (sqrt 10) 10 10 (mk3 10 0 0) (mk3 1 1 0)); [exact F |].
  unfold lagrange_state. rewrite E0, E1, E2.
  replace ((3 / 8 * sqrt 10) ^ 2 / 2) with (45 / 64) by (replace ((3 / 8 * sqrt 10) ^ 2) with (9 / 64 * (sqrt 10 * sqrt 10)) by field; rewrite QQ; field).
  replace (10 * 1 + sqrt 10 * (3 / 8 * sqrt 10) + 45 / 64) with (925 / 64) by (replace (sqrt 10 * (3 / 8 * sqrt 10)) with (3 / 8 * (sqrt 10 * sqrt 10)) by ring; rewrite QQ; field).
  replace ((10 * (3 / 8 * sqrt 10) + sqrt 10 * (45 / 64)) / sqrt 10) with (285 / 64) by (field; lra).
  replace (sqrt 10 * (3 / 8 * sqrt 10)) with (15 / 4) by (replace (sqrt 10 * (3 / 8 * sqrt 10)) with (3 / 8 * (sqrt 10 * sqrt 10)) by ring; rewrite QQ; field).
  unfold vplus, smul. cbn [c0 c1 c2]. apply f_equal2; (apply f_equal3 || idtac); field.
Qed.

(** ** Double precision *)
Definition id64 : libm64 := {| d_cbrt := fun x => x; d_sin := fun x => x; d_cos := fun _ => b64_Z 1; d_sinh := fun x => x; d_cosh := fun _ => b64_Z 1;
  d_log := fun x => x; d_arccos := fun x => x; d_arctan2 := fun x _ => x |}.
Lemma id64_flat : flat64 id64.
Proof. intros x _ _ _. repeat split. Qed.
Definition id32 : libm := {| m_cbrt := fun x => x; m_sin := fun x => x; m_cos := fun _ => b32_Z 1; m_sinh := fun x => x; m_cosh := fun _ => b32_Z 1;
  m_log := fun x => x; m_arccos := fun x => x; m_arctan2 := fun x _ => x |}.
Lemma id32_flat : flat32 id32.
Proof. intros x _ _ _. repeat split. Qed.

Lemma one_step (S : Type) (k : nat) (c : S -> bool) (b : S -> S) (s : S) : c s = true -> c (b s) = false -> while_fuel (Datatypes.S (Datatypes.S k)) c b s = Some (b s).
Proof. intros H1 H2. cbn [while_fuel]. rewrite H1, H2. reflexivity. Qed.

Section Double.
  Variable L : libm64.
  Hypothesis FL : flat64 L.
  Let N : Num b64 := Num_B64 L.
  Let I : Num b64 := Num_B64 id64.
  Lemma same64 (chi al : b64) : (let z := b64_mul (b64_sqrt (Bopp al)) chi in is_finite z = true /\ B2R z <> 0 /\ B2R z ^ 2 <= / IZR (2 ^ 53)) -> Bltb (b64_Z 0) al = false ->
    @ufunc0 _ N chi al = @ufunc0 _ I chi al /\ @ufunc1 _ N chi al = @ufunc1 _ I chi al /\ @ufunc2 _ N chi al = @ufunc2 _ I chi al /\ @ufunc3 _ N chi al = @ufunc3 _ I chi al.
  Proof using FL.
    intros [F [Z B]] S. destruct (FL _ F Z B) as [_ [C [_ H]]].
    assert (G1 : @n_gt _ N al (@n_Z _ N 0) = false) by exact S. assert (G2 : @n_gt _ I al (@n_Z _ I 0) = false) by exact S.
    unfold ufunc0, ufunc1, ufunc2, ufunc3, where_. rewrite G1, G2. cbv beta iota.
    change (@n_lt _ I al (@n_Z _ I 0)) with (@n_lt _ N al (@n_Z _ N 0)).
    destruct (@n_lt _ N al (@n_Z _ N 0)); [| repeat split; reflexivity].
    change (@n_mul _ N (@n_sqrt _ N (@n_neg _ N al)) chi) with (b64_mul (b64_sqrt (Bopp al)) chi). change (@n_mul _ I (@n_sqrt _ I (@n_neg _ I al)) chi) with (b64_mul (b64_sqrt (Bopp al)) chi).
    change (@n_cosh _ N) with (d_cosh L). change (@n_sinh _ N) with (d_sinh L). change (@n_cosh _ I) with (fun _ : b64 => b64_Z 1). change (@n_sinh _ I) with (fun x : b64 => x).
    cbv beta. rewrite C, H. repeat split; reflexivity.
  Qed.
  Lemma kep64 (chi al r0 s0 t mu : b64) : (let z := b64_mul (b64_sqrt (Bopp al)) chi in is_finite z = true /\ B2R z <> 0 /\ B2R z ^ 2 <= / IZR (2 ^ 53)) -> Bltb (b64_Z 0) al = false ->
    @kepler_equ_uni _ N chi al r0 s0 t mu = @kepler_equ_uni _ I chi al r0 s0 t mu /\ @dchi _ N chi al r0 s0 = @dchi _ I chi al r0 s0 /\
    forall x v : V3 b64, @state_at_chi _ N chi al s0 r0 x v mu = @state_at_chi _ I chi al s0 r0 x v mu.
  Proof using FL.
    intros H S. destruct (same64 chi al H S) as [E0 [E1 [E2 E3]]]. split; [| split].
    - unfold kepler_equ_uni. rewrite E1, E2, E3. reflexivity.
    - unfold dchi. rewrite E0, E1, E2. reflexivity.
    - intros x v. unfold state_at_chi. rewrite E0, E1, E2. generalize (@ufunc0 _ I chi al) (@ufunc1 _ I chi al) (@ufunc2 _ I chi al). intros u0 u1 u2. unfold lagrange_F, lagrange_G, lagrange_Ft, lagrange_Gt, equ_of_orb_uvi, lagrange_prop, vadd, vscale. cbv [n_add n_sub n_mul n_div n_sqrt n_neg n_Z N I Num_B64]. reflexivity.
  Qed.
  Let x : V3 b64 := mk3 (b64_Z 10) (b64_Z 0) (b64_Z 0).
  Let v : V3 b64 := mk3 (b64_Z 1) (b64_Z 1) (b64_Z 0).
  Let m : b64 := b64_Z 10.
  Let t : b64 := b64_dec 2325 512.
  Let al : b64 := @alpha_of _ I (@vector_norm _ I x) (@vector_norm _ I v) m.
  Let r0 : b64 := @vector_norm _ I x.
  Let s0 : b64 := @sigma_fn _ I x v m.
  Let g : b64 := @uni_guess _ I t al m.
  Let st := @uni_body _ I t al r0 s0 m (@uni_init _ I t al m (@default_tol _ I)).
  Lemma small64 (z : b64) (mm : positive) (e : Z) : B2SF z = SpecFloat.S754_finite false mm e -> 0 < F2R (Float radix2 (Zpos mm) e) -> F2R (Float radix2 (Zpos mm) e) ^ 2 <= / IZR (2 ^ 53) ->
    is_finite z = true /\ B2R z <> 0 /\ B2R z ^ 2 <= / IZR (2 ^ 53).
  Proof using. intros H P B. destruct (fval64 _ _ _ _ H) as [F V]. cbn [cond_Zopp] in V. rewrite V. split; [exact F |]. split; [lra | exact B]. Qed.
  Lemma run64 : @uni_run _ N t al r0 s0 m (@default_tol _ N) uni_max_iter = Some st.
  Proof using FL.
    assert (S : Bltb (b64_Z 0) al = false) by (vm_compute; reflexivity).
    assert (Z1 : let z := b64_mul (b64_sqrt (Bopp al)) g in is_finite z = true /\ B2R z <> 0 /\ B2R z ^ 2 <= / IZR (2 ^ 53)).
    { cbv zeta. apply (small64 _ 5716204874588704 (-131)); [vm_compute; reflexivity | unfold F2R; simpl; lra | unfold F2R; simpl; lra]. }
    assert (Z2 : let z := b64_mul (b64_sqrt (Bopp al)) (snd (fst st)) in is_finite z = true /\ B2R z <> 0 /\ B2R z ^ 2 <= / IZR (2 ^ 53)).
    { cbv zeta. apply (small64 _ 4572963899670962 (-79)); [vm_compute; reflexivity | unfold F2R; simpl; lra | unfold F2R; simpl; lra]. }
    destruct (kep64 g al r0 s0 t m Z1 S) as [K1 [D1 _]]. destruct (kep64 (snd (fst st)) al r0 s0 t m Z2 S) as [K2 _].
    assert (B : @uni_body _ N t al r0 s0 m (@uni_init _ N t al m (@default_tol _ N)) = st).
    { unfold st, uni_body, uni_init. cbv beta iota zeta. change (@uni_guess _ N t al m) with g. change (@uni_guess _ I t al m) with g. rewrite K1, D1. cbv [n_sub n_div N I Num_B64]. reflexivity. }
    unfold uni_run. change (loop_fuel uni_max_iter) with (Datatypes.S (Datatypes.S (Nat.pred (Nat.pred (loop_fuel uni_max_iter))))). rewrite <- B. apply one_step.
    - unfold uni_cond, uni_init. change (@uni_guess _ N t al m) with g. rewrite K1. vm_compute. reflexivity.
    - rewrite B. unfold uni_cond. replace st with (fst (fst st), snd (fst st), snd st) by (destruct st as [[? ?] ?]; reflexivity). cbv beta iota. rewrite K2. vm_compute. reflexivity.
  Qed.
  Lemma line64 : exists P Q : V3 b64, @kepler _ N [t] x v m = [(P, Q)] /\ B2R (c0 P) = 7445 / 512 /\ B2R (c1 P) = 2325 / 512 - / 1125899906842624 /\ B2R (c2 P) = 0 /\
    B2R (c1 Q) = 1 /\ B2R al = - / IZR (2 ^ 55).
  Proof using FL.
    assert (S : Bltb (b64_Z 0) al = false) by (vm_compute; reflexivity).
    assert (Z2 : let z := b64_mul (b64_sqrt (Bopp al)) (snd (fst st)) in is_finite z = true /\ B2R z <> 0 /\ B2R z ^ 2 <= / IZR (2 ^ 53)).
    { cbv zeta. apply (small64 _ 4572963899670962 (-79)); [vm_compute; reflexivity | unfold F2R; simpl; lra | unfold F2R; simpl; lra]. }
    destruct (kep64 (snd (fst st)) al r0 s0 t m Z2 S) as [_ [_ K]].
    assert (R : @uni_run _ N t al r0 s0 m (@default_tol _ N) uni_max_iter = Some (fst (fst st), snd (fst st), snd st)) by (rewrite run64; destruct st as [[? ?] ?]; reflexivity).
    pose proof (B64Back.kepler_row _ N [t] 0 t x v m (fst (fst st)) (snd (fst st)) (snd st) eq_refl R) as Row.
    change (@alpha_of _ N (@vector_norm _ N x) (@vector_norm _ N v) m) with al in Row. change (@sigma_fn _ N x v m) with s0 in Row. change (@vector_norm _ N x) with r0 in Row.
    rewrite (K x v) in Row. set (w := @state_at_chi _ I (snd (fst st)) al s0 r0 x v m) in *.
    assert (Len : length (@kepler _ N [t] x v m) = 1%nat) by (rewrite (@kepler_map _ N), map_length; reflexivity).
    destruct (@kepler _ N [t] x v m) as [| row [| ? ?]]; try discriminate Len. injection Row as Row. exists (fst w), (snd w). split; [rewrite Row; destruct w; reflexivity |].
    destruct (fval64 (c0 (fst w)) false 8185864068792320 (-49) ltac:(vm_compute; reflexivity)) as [_ V0].
    destruct (fval64 (c1 (fst w)) false 5112729069158399 (-50) ltac:(vm_compute; reflexivity)) as [_ V1].
    destruct (fval64 (c1 (snd w)) false 4503599627370496 (-52) ltac:(vm_compute; reflexivity)) as [_ V3].
    destruct (fval64 al true 4503599627370496 (-107) ltac:(vm_compute; reflexivity)) as [_ V4].
    assert (V2 : B2R (c2 (fst w)) = 0) by (rewrite <- SF2R_B2SF; assert (H : B2SF (c2 (fst w)) = SpecFloat.S754_zero false) by (vm_compute; reflexivity); rewrite H; reflexivity).
    rewrite V0, V1, V2, V3, V4. unfold F2R. simpl. repeat split; lra.
  Qed.
End Double.

Section Single.
  Variable L : libm.
  Hypothesis FL : flat32 L.
  Let N : Num b32 := Num_B32 L.
  Let I : Num b32 := Num_B32 id32.
  Lemma same32 (chi al : b32) : (let z := b32_mul (b32_sqrt al) chi in is_finite z = true /\ B2R z <> 0 /\ B2R z ^ 2 <= / IZR (2 ^ 24)) -> Bltb (b32_Z 0) al = true ->
    @ufunc0 _ N chi al = @ufunc0 _ I chi al /\ @ufunc1 _ N chi al = @ufunc1 _ I chi al /\ @ufunc2 _ N chi al = @ufunc2 _ I chi al /\ @ufunc3 _ N chi al = @ufunc3 _ I chi al.
  Proof using FL.
    intros [F [Z B]] S. destruct (FL _ F Z B) as [C [_ [H _]]].
    assert (G1 : @n_gt _ N al (@n_Z _ N 0) = true) by exact S. assert (G2 : @n_gt _ I al (@n_Z _ I 0) = true) by exact S.
    unfold ufunc0, ufunc1, ufunc2, ufunc3, where_. rewrite G1, G2. cbv beta iota.
    change (@n_mul _ N (@n_sqrt _ N al) chi) with (b32_mul (b32_sqrt al) chi). change (@n_mul _ I (@n_sqrt _ I al) chi) with (b32_mul (b32_sqrt al) chi).
    change (@n_cos _ N) with (m_cos L). change (@n_sin _ N) with (m_sin L). change (@n_cos _ I) with (fun _ : b32 => b32_Z 1). change (@n_sin _ I) with (fun x : b32 => x).
    cbv beta. rewrite C, H. repeat split; reflexivity.
  Qed.
  Lemma kep32 (chi al r0 s0 t mu : b32) : (let z := b32_mul (b32_sqrt al) chi in is_finite z = true /\ B2R z <> 0 /\ B2R z ^ 2 <= / IZR (2 ^ 24)) -> Bltb (b32_Z 0) al = true ->
    @kepler_equ_uni _ N chi al r0 s0 t mu = @kepler_equ_uni _ I chi al r0 s0 t mu /\ @dchi _ N chi al r0 s0 = @dchi _ I chi al r0 s0 /\
    forall x v : V3 b32, @state_at_chi _ N chi al s0 r0 x v mu = @state_at_chi _ I chi al s0 r0 x v mu.
  Proof using FL.
    intros H S. destruct (same32 chi al H S) as [E0 [E1 [E2 E3]]]. split; [| split].
    - unfold kepler_equ_uni. rewrite E1, E2, E3. reflexivity.
    - unfold dchi. rewrite E0, E1, E2. reflexivity.
    - intros x v. unfold state_at_chi. rewrite E0, E1, E2. generalize (@ufunc0 _ I chi al) (@ufunc1 _ I chi al) (@ufunc2 _ I chi al). intros u0 u1 u2. unfold lagrange_F, lagrange_G, lagrange_Ft, lagrange_Gt, equ_of_orb_uvi, lagrange_prop, vadd, vscale. cbv [n_add n_sub n_mul n_div n_sqrt n_neg n_Z N I Num_B32]. reflexivity.
  Qed.
  Let x : V3 b32 := mk3 (b32_Z 10) (b32_Z 0) (b32_Z 0).
  Let v : V3 b32 := mk3 (b32_Z 1) (b32_Z 1) (b32_Z 0).
  Let m : b32 := b32_Z 10.
  Let t : b32 := b32_dec 2325 512.
  Let al : b32 := @alpha_of _ I (@vector_norm _ I x) (@vector_norm _ I v) m.
  Let r0 : b32 := @vector_norm _ I x.
  Let s0 : b32 := @sigma_fn _ I x v m.
  Let g : b32 := @uni_guess _ I t al m.
  Let st := @uni_body _ I t al r0 s0 m (@uni_init _ I t al m (@default_tol _ I)).
  Lemma small32 (z : b32) (mm : positive) (e : Z) : B2SF z = SpecFloat.S754_finite false mm e -> 0 < F2R (Float radix2 (Zpos mm) e) -> F2R (Float radix2 (Zpos mm) e) ^ 2 <= / IZR (2 ^ 24) ->
    is_finite z = true /\ B2R z <> 0 /\ B2R z ^ 2 <= / IZR (2 ^ 24).
  Proof using. intros H P B. destruct (fval32 _ _ _ _ H) as [F V]. cbn [cond_Zopp] in V. rewrite V. split; [exact F |]. split; [lra | exact B]. Qed.
  Lemma run32 : @uni_run _ N t al r0 s0 m (@default_tol _ N) uni_max_iter = Some st.
  Proof using FL.
    assert (S : Bltb (b32_Z 0) al = true) by (vm_compute; reflexivity).
    assert (Z1 : let z := b32_mul (b32_sqrt al) g in is_finite z = true /\ B2R z <> 0 /\ B2R z ^ 2 <= / IZR (2 ^ 24)).
    { cbv zeta. apply (small32 _ 15057501 (-59)); [vm_compute; reflexivity | unfold F2R; simpl; lra | unfold F2R; simpl; lra]. }
    assert (Z2 : let z := b32_mul (b32_sqrt al) (snd (fst st)) in is_finite z = true /\ B2R z <> 0 /\ B2R z ^ 2 <= / IZR (2 ^ 24)).
    { cbv zeta. apply (small32 _ 12046000 (-36)); [vm_compute; reflexivity | unfold F2R; simpl; lra | unfold F2R; simpl; lra]. }
    destruct (kep32 g al r0 s0 t m Z1 S) as [K1 [D1 _]]. destruct (kep32 (snd (fst st)) al r0 s0 t m Z2 S) as [K2 _].
    assert (B : @uni_body _ N t al r0 s0 m (@uni_init _ N t al m (@default_tol _ N)) = st).
    { unfold st, uni_body, uni_init. cbv beta iota zeta. change (@uni_guess _ N t al m) with g. change (@uni_guess _ I t al m) with g. rewrite K1, D1. cbv [n_sub n_div N I Num_B32]. reflexivity. }
    unfold uni_run. change (loop_fuel uni_max_iter) with (Datatypes.S (Datatypes.S (Nat.pred (Nat.pred (loop_fuel uni_max_iter))))). rewrite <- B. apply one_step.
    - unfold uni_cond, uni_init. change (@uni_guess _ N t al m) with g. rewrite K1. vm_compute. reflexivity.
    - rewrite B. unfold uni_cond. replace st with (fst (fst st), snd (fst st), snd st) by (destruct st as [[? ?] ?]; reflexivity). cbv beta iota. rewrite K2. vm_compute. reflexivity.
  Qed.
  Lemma line32 : exists P Q : V3 b32, @kepler _ N [t] x v m = [(P, Q)] /\ B2R (c0 P) = 7445 / 512 /\ B2R (c1 P) = 2325 / 512 - / 2097152 /\ B2R (c2 P) = 0 /\
    B2R (c1 Q) = 1 /\ B2R al = / IZR (2 ^ 26).
  Proof using FL.
    assert (S : Bltb (b32_Z 0) al = true) by (vm_compute; reflexivity).
    assert (Z2 : let z := b32_mul (b32_sqrt al) (snd (fst st)) in is_finite z = true /\ B2R z <> 0 /\ B2R z ^ 2 <= / IZR (2 ^ 24)).
    { cbv zeta. apply (small32 _ 12046000 (-36)); [vm_compute; reflexivity | unfold F2R; simpl; lra | unfold F2R; simpl; lra]. }
    destruct (kep32 (snd (fst st)) al r0 s0 t m Z2 S) as [_ [_ K]].
    assert (R : @uni_run _ N t al r0 s0 m (@default_tol _ N) uni_max_iter = Some (fst (fst st), snd (fst st), snd st)) by (rewrite run32; destruct st as [[? ?] ?]; reflexivity).
    pose proof (B32Back.kepler_row _ N [t] 0 t x v m (fst (fst st)) (snd (fst st)) (snd st) eq_refl R) as Row.
    change (@alpha_of _ N (@vector_norm _ N x) (@vector_norm _ N v) m) with al in Row. change (@sigma_fn _ N x v m) with s0 in Row. change (@vector_norm _ N x) with r0 in Row.
    rewrite (K x v) in Row. set (w := @state_at_chi _ I (snd (fst st)) al s0 r0 x v m) in *.
    assert (Len : length (@kepler _ N [t] x v m) = 1%nat) by (rewrite (@kepler_map _ N), map_length; reflexivity).
    destruct (@kepler _ N [t] x v m) as [| row [| ? ?]]; try discriminate Len. injection Row as Row. exists (fst w), (snd w). split; [rewrite Row; destruct w; reflexivity |].
    destruct (fval32 (c0 (fst w)) false 15247360 (-20) ltac:(vm_compute; reflexivity)) as [_ V0].
    destruct (fval32 (c1 (fst w)) false 9523199 (-21) ltac:(vm_compute; reflexivity)) as [_ V1].
    destruct (fval32 (c1 (snd w)) false 8388608 (-23) ltac:(vm_compute; reflexivity)) as [_ V3].
    destruct (fval32 al false 8388608 (-49) ltac:(vm_compute; reflexivity)) as [_ V4].
    assert (V2 : B2R (c2 (fst w)) = 0) by (rewrite <- SF2R_B2SF; assert (H : B2SF (c2 (fst w)) = SpecFloat.S754_zero false) by (vm_compute; reflexivity); rewrite H; reflexivity).
    rewrite V0, V1, V2, V3, V4. unfold F2R. simpl. repeat split; lra.
  Qed.
End Single.

(** ** No good library follows the parabola *)
Lemma far_off (P p : vec) : Rabs (c0 P - 7445 / 512) <= / 1000 -> Rabs (c1 P - 2325 / 512) <= / 1000 -> c2 P = 0 -> p = mk3 (55 / 4) (285 / 64) 0 ->
  / 20 * vnorm p < vnorm (vminus P p).
Proof.
  intros H0 H1 H2 ->. apply Rabs_le_inv in H0, H1. destruct P as [a b c]. cbn [c0 c1 c2] in *. subst c. unfold vnorm, dot, vminus. cbn [c0 c1 c2].
  assert (E : sqrt (55 / 4 * (55 / 4) + 285 / 64 * (285 / 64) + 0 * 0) = 925 / 64) by (apply Rsqr_inj; [apply sqrt_pos | lra | rewrite Rsqr_sqrt by lra; unfold Rsqr; lra]).
  rewrite E. apply Rlt_le_trans with (sqrt ((3 / 4) ^ 2)); [rewrite sqrt_pow2; lra |]. apply sqrt_le_1; nra.
Qed.

Lemma straight_double : forall L : libm64, flat64 L -> exists (x v : V3 b64) (mu t : b64) (P Q : V3 b64) (p q : vec),
  good64v 100 x /\ good64v 100 v /\ good64 100 mu /\ 0 < B2R mu /\ good64 100 t /\ parabolic (B2R mu) (real64 x) (real64 v) /\ cross (real64 x) (real64 v) <> vzero /\
  @kepler _ (Num_B64 L) [t] x v mu = [(P, Q)] /\ flows_to (B2R mu) (B2R t) (real64 x, real64 v) (p, q) /\ / 20 * vnorm p < vnorm (vminus (real64 P) p).
Proof.
  intros L FL. destruct (line64 L FL) as [P [Q [K [V0 [V1 [V2 _]]]]]].
  destruct (int64 10 ltac:(lia)) as [F10 V10]. destruct (int64 1 ltac:(lia)) as [F1 W1]. destruct (int64 0 ltac:(lia)) as [F0 W0].
  assert (Vt : is_finite (b64_dec 2325 512) = true /\ B2R (b64_dec 2325 512) = 2325 / 512).
  { destruct (fval64 (b64_dec 2325 512) false 5112729069158400 (-50) ltac:(vm_compute; reflexivity)) as [F V]. split; [exact F | rewrite V; unfold F2R; simpl; lra]. }
  destruct Vt as [Ft Vt].
  exists (mk3 (b64_Z 10) (b64_Z 0) (b64_Z 0)), (mk3 (b64_Z 1) (b64_Z 1) (b64_Z 0)), (b64_Z 10), (b64_dec 2325 512), P, Q, (mk3 (55 / 4) (285 / 64) 0), (mk3 (128 / 185) (176 / 185) 0).
  unfold good64v, good64, real64. cbn [c0 c1 c2]. rewrite W0, W1, V10, Vt. destruct true_parabola as [Par Fl].
  assert (X : vnorm (mk3 10 0 0) = 10) by (unfold vnorm, dot; cbn [c0 c1 c2]; replace (10 * 10 + 0 * 0 + 0 * 0) with (10 * 10) by ring; apply sqrt_square; lra).
  assert (Vn : 1 <= vnorm (mk3 1 1 0) <= 2).
  { unfold vnorm, dot; cbn [c0 c1 c2]. split; [rewrite <- sqrt_1 at 1; apply sqrt_le_1; lra |]. rewrite <- (sqrt_square 2) by lra. apply sqrt_le_1; lra. }
  repeat match goal with |- _ /\ _ => split end; try assumption; try lra;
    try (rewrite X; apply range_between; [simpl; lra | lia]); try (apply range_between; [simpl; lra | lia]).
  - unfold cross, vzero; cbn [c0 c1 c2]; intro H; injection H; intros; lra.
  - apply far_off; cbn [c0 c1 c2]; [rewrite V0 | rewrite V1 | exact V2 | reflexivity]; apply Rabs_le; lra.
Qed.
Lemma parabola_double_refuted : ~ exists L : libm64, flat64 L /\ forall (x v : V3 b64) (mu t : b64) (P Q : V3 b64) (p q : vec),
  good64v 100 x -> good64v 100 v -> good64 100 mu -> 0 < B2R mu -> good64 100 t -> parabolic (B2R mu) (real64 x) (real64 v) -> cross (real64 x) (real64 v) <> vzero ->
  @kepler _ (Num_B64 L) [t] x v mu = [(P, Q)] -> flows_to (B2R mu) (B2R t) (real64 x, real64 v) (p, q) -> vnorm (vminus (real64 P) p) <= / 20 * vnorm p.
Proof.
  intros [L [FL H]]. destruct (straight_double L FL) as [x [v [mu [t [P [Q [p [q [Gx [Gv [Gm [Pm [Gt [Pa [Cr [K [F D]]]]]]]]]]]]]]]]].
  pose proof (H x v mu t P Q p q Gx Gv Gm Pm Gt Pa Cr K F). lra.
Qed.
Lemma zero_double_refuted : ~ exists L : libm64, forall (x v : V3 b64) (mu : b64),
  good64v 100 x -> good64v 100 v -> good64 100 mu -> 0 < B2R mu -> parabolic (B2R mu) (real64 x) (real64 v) ->
  let N := Num_B64 L in B2R (@alpha_of _ N (@vector_norm _ N x) (@vector_norm _ N v) mu) = 0.
Proof.
  intros [L H]. destruct (int64 10 ltac:(lia)) as [F10 V10]. destruct (int64 1 ltac:(lia)) as [F1 W1]. destruct (int64 0 ltac:(lia)) as [F0 W0].
  assert (X : vnorm (mk3 10 0 0) = 10) by (unfold vnorm, dot; cbn [c0 c1 c2]; replace (10 * 10 + 0 * 0 + 0 * 0) with (10 * 10) by ring; apply sqrt_square; lra).
  assert (Vn : 1 <= vnorm (mk3 1 1 0) <= 2).
  { unfold vnorm, dot; cbn [c0 c1 c2]. split; [rewrite <- sqrt_1 at 1; apply sqrt_le_1; lra |]. rewrite <- (sqrt_square 2) by lra. apply sqrt_le_1; lra. }
  pose proof (H (mk3 (b64_Z 10) (b64_Z 0) (b64_Z 0)) (mk3 (b64_Z 1) (b64_Z 1) (b64_Z 0)) (b64_Z 10)) as K.
  unfold good64v, good64, real64 in K. cbn [c0 c1 c2] in K. rewrite W0, W1, V10 in K.
  assert (E : B2R (@alpha_of _ (Num_B64 id64) (@vector_norm _ (Num_B64 id64) (mk3 (b64_Z 10) (b64_Z 0) (b64_Z 0))) (@vector_norm _ (Num_B64 id64) (mk3 (b64_Z 1) (b64_Z 1) (b64_Z 0))) (b64_Z 10)) <> 0)
    by (destruct (line64 id64 id64_flat) as [P [Q [_ [_ [_ [_ [_ A]]]]]]]; rewrite A; simpl; lra).
  apply E. apply K; try lra; try (apply true_parabola);
    repeat match goal with |- _ /\ _ => split end; try assumption; try (rewrite X; apply range_between; [simpl; lra | lia]); try (apply range_between; [simpl; lra | lia]).
Qed.

Lemma straight_single : forall L : libm, flat32 L -> exists (x v : V3 b32) (mu t : b32) (P Q : V3 b32) (p q : vec),
  good32v 17 x /\ good32v 8 v /\ good32 20 mu /\ 0 < B2R mu /\ good32 40 t /\ parabolic (B2R mu) (real32 x) (real32 v) /\ cross (real32 x) (real32 v) <> vzero /\
  @kepler _ (Num_B32 L) [t] x v mu = [(P, Q)] /\ flows_to (B2R mu) (B2R t) (real32 x, real32 v) (p, q) /\ / 20 * vnorm p < vnorm (vminus (real32 P) p).
Proof.
  intros L FL. destruct (line32 L FL) as [P [Q [K [V0 [V1 [V2 _]]]]]].
  destruct (int32 10 ltac:(lia)) as [F10 V10]. destruct (int32 1 ltac:(lia)) as [F1 W1]. destruct (int32 0 ltac:(lia)) as [F0 W0].
  assert (Vt : is_finite (b32_dec 2325 512) = true /\ B2R (b32_dec 2325 512) = 2325 / 512).
  { destruct (fval32 (b32_dec 2325 512) false 9523200 (-21) ltac:(vm_compute; reflexivity)) as [F V]. split; [exact F | rewrite V; unfold F2R; simpl; lra]. }
  destruct Vt as [Ft Vt].
  exists (mk3 (b32_Z 10) (b32_Z 0) (b32_Z 0)), (mk3 (b32_Z 1) (b32_Z 1) (b32_Z 0)), (b32_Z 10), (b32_dec 2325 512), P, Q, (mk3 (55 / 4) (285 / 64) 0), (mk3 (128 / 185) (176 / 185) 0).
  unfold good32v, good32, real32. cbn [c0 c1 c2]. rewrite W0, W1, V10, Vt. destruct true_parabola as [Par Fl].
  assert (X : vnorm (mk3 10 0 0) = 10) by (unfold vnorm, dot; cbn [c0 c1 c2]; replace (10 * 10 + 0 * 0 + 0 * 0) with (10 * 10) by ring; apply sqrt_square; lra).
  assert (Vn : 1 <= vnorm (mk3 1 1 0) <= 2).
  { unfold vnorm, dot; cbn [c0 c1 c2]. split; [rewrite <- sqrt_1 at 1; apply sqrt_le_1; lra |]. rewrite <- (sqrt_square 2) by lra. apply sqrt_le_1; lra. }
  repeat match goal with |- _ /\ _ => split end; try assumption; try lra;
    try (rewrite X; apply range_between; [simpl; lra | lia]); try (apply range_between; [simpl; lra | lia]).
  - unfold cross, vzero; cbn [c0 c1 c2]; intro H; injection H; intros; lra.
  - apply far_off; cbn [c0 c1 c2]; [rewrite V0 | rewrite V1 | exact V2 | reflexivity]; apply Rabs_le; lra.
Qed.
Lemma parabola_single_refuted : ~ exists L : libm, flat32 L /\ forall (x v : V3 b32) (mu t : b32) (P Q : V3 b32) (p q : vec),
  good32v 17 x -> good32v 8 v -> good32 20 mu -> 0 < B2R mu -> good32 40 t -> parabolic (B2R mu) (real32 x) (real32 v) -> cross (real32 x) (real32 v) <> vzero ->
  @kepler _ (Num_B32 L) [t] x v mu = [(P, Q)] -> flows_to (B2R mu) (B2R t) (real32 x, real32 v) (p, q) -> vnorm (vminus (real32 P) p) <= / 20 * vnorm p.
Proof.
  intros [L [FL H]]. destruct (straight_single L FL) as [x [v [mu [t [P [Q [p [q [Gx [Gv [Gm [Pm [Gt [Pa [Cr [K [F D]]]]]]]]]]]]]]]]].
  pose proof (H x v mu t P Q p q Gx Gv Gm Pm Gt Pa Cr K F). lra.
Qed.
Lemma zero_single_refuted : ~ exists L : libm, forall (x v : V3 b32) (mu : b32),
  good32v 17 x -> good32v 8 v -> good32 20 mu -> 0 < B2R mu -> parabolic (B2R mu) (real32 x) (real32 v) ->
  let N := Num_B32 L in B2R (@alpha_of _ N (@vector_norm _ N x) (@vector_norm _ N v) mu) = 0.
Proof.
  intros [L H]. destruct (int32 10 ltac:(lia)) as [F10 V10]. destruct (int32 1 ltac:(lia)) as [F1 W1]. destruct (int32 0 ltac:(lia)) as [F0 W0].
  assert (X : vnorm (mk3 10 0 0) = 10) by (unfold vnorm, dot; cbn [c0 c1 c2]; replace (10 * 10 + 0 * 0 + 0 * 0) with (10 * 10) by ring; apply sqrt_square; lra).
  assert (Vn : 1 <= vnorm (mk3 1 1 0) <= 2).
  { unfold vnorm, dot; cbn [c0 c1 c2]. split; [rewrite <- sqrt_1 at 1; apply sqrt_le_1; lra |]. rewrite <- (sqrt_square 2) by lra. apply sqrt_le_1; lra. }
  pose proof (H (mk3 (b32_Z 10) (b32_Z 0) (b32_Z 0)) (mk3 (b32_Z 1) (b32_Z 1) (b32_Z 0)) (b32_Z 10)) as K.
  unfold good32v, good32, real32 in K. cbn [c0 c1 c2] in K. rewrite W0, W1, V10 in K.
  assert (E : B2R (@alpha_of _ (Num_B32 id32) (@vector_norm _ (Num_B32 id32) (mk3 (b32_Z 10) (b32_Z 0) (b32_Z 0))) (@vector_norm _ (Num_B32 id32) (mk3 (b32_Z 1) (b32_Z 1) (b32_Z 0))) (b32_Z 10)) <> 0)
    by (destruct (line32 id32 id32_flat) as [P [Q [_ [_ [_ [_ [_ A]]]]]]]; rewrite A; simpl; lra).
  apply E. apply K; try lra; try (apply true_parabola);
    repeat match goal with |- _ /\ _ => split end; try assumption; try (rewrite X; apply range_between; [simpl; lra | lia]); try (apply range_between; [simpl; lra | lia]).
Qed.

(** ** Cases for C105: a low orbit and an escape orbit about the Earth, and parabolas taken for either kind *)
Lemma signs64 (L : libm64) : let N := Num_B64 L in
  let al x v mu := @alpha_of _ N (@vector_norm _ N (mk3 (b64_Z x) (b64_Z 0) (b64_Z 0))) (@vector_norm _ N (mk3 (b64_Z 0) (b64_Z v) (b64_Z 0))) (b64_Z mu) in
  let diag x u w mu := @alpha_of _ N (@vector_norm _ N (mk3 (b64_Z x) (b64_Z 0) (b64_Z 0))) (@vector_norm _ N (mk3 (b64_Z u) (b64_Z w) (b64_Z 0))) (b64_Z mu) in
  Bltb (b64_Z 0) (al 7000%Z 7%Z 398600%Z) = true /\ Bltb (al 7000%Z 11%Z 398600%Z) (b64_Z 0) = true /\
  B2SF (al 1%Z 2%Z 2%Z) = SpecFloat.S754_zero false /\ Bltb (diag 10%Z 1%Z 1%Z 10%Z) (b64_Z 0) = true /\ Bltb (b64_Z 0) (diag 1%Z 3%Z 3%Z 9%Z) = true.
Proof. repeat split; vm_compute; reflexivity. Qed.
Lemma signs32 (L : libm) : let N := Num_B32 L in
  let al x v mu := @alpha_of _ N (@vector_norm _ N (mk3 (b32_Z x) (b32_Z 0) (b32_Z 0))) (@vector_norm _ N (mk3 (b32_Z 0) (b32_Z v) (b32_Z 0))) (b32_Z mu) in
  let diag x u w mu := @alpha_of _ N (@vector_norm _ N (mk3 (b32_Z x) (b32_Z 0) (b32_Z 0))) (@vector_norm _ N (mk3 (b32_Z u) (b32_Z w) (b32_Z 0))) (b32_Z mu) in
  Bltb (b32_Z 0) (al 7000%Z 7%Z 398600%Z) = true /\ Bltb (al 7000%Z 11%Z 398600%Z) (b32_Z 0) = true /\
  B2SF (al 1%Z 2%Z 2%Z) = SpecFloat.S754_zero false /\ Bltb (b32_Z 0) (diag 10%Z 1%Z 1%Z 10%Z) = true.
Proof. repeat split; vm_compute; reflexivity. Qed.
