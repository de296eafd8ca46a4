(** * B32Rel: relative errors of chains of single precision operations. *)
From Coq Require Import ZArith Reals Lra Lia Psatz Bool.
From Flocq Require Import Core IEEE754.BinarySingleNaN.
Require Import Flocq.Prop.Relative.
From Verif Require Import Num NumB32 SpecFl RelLib B32Lib B32Acc.
Local Open Scope R_scope.

(** finite, and the value is [v] up to [k] roundings *)
Definition Fl (k : nat) (x : b32) (v : R) : Prop := is_finite x = true /\ near eps k (B2R x) v.

Definition normal : R -> Prop := in_range 125.

Lemma eps_range : 0 < eps <= / 100000.
Proof. unfold eps. lra. Qed.

Lemma rnd_near (x : R) : bpow radix2 (-126) <= Rabs x -> near eps 1 (rnd x) x.
Proof.
  intro H.
  destruct (relative_error_N_FLX'_ex radix2 24 eq_refl (fun z => negb (Z.even z)) x) as [t [T E]].
  exists (1 + t). split.
  - rewrite <- E. exact (round_FLT_FLX radix2 (-149) 24 _ x H).
  - replace (u_ro radix2 24) with eps in T by (unfold u_ro, eps; simpl; lra).
    pose proof eps_range as P. apply Rabs_le_inv in T. rewrite !pow_1.
    assert (D : eps / (1 + eps) <= eps).
    { apply Rmult_le_reg_r with (1 + eps); [lra |]. unfold Rdiv. rewrite Rmult_assoc, Rinv_l by lra. nra. }
    assert (D' : / (1 + eps) = 1 - eps / (1 + eps)) by (field; lra).
    lra.
Qed.

(** what is rounded stays far from the ends of the range *)
Lemma normal_wide (k : nat) (a v : R) : (k <= 64)%nat -> near eps k a v -> / IZR (2 ^ 125) <= Rabs v <= IZR (2 ^ 125) ->
  bpow radix2 (-126) <= Rabs a /\ Rabs a <= IZR (2 ^ 127).
Proof.
  intros K N [V1 V2]. destruct (near_size eps eps_range k a v K N) as [A1 A2]. split.
  - apply Rle_trans with (2 := A1). apply Rle_trans with (/ IZR (2 ^ 125) / 2); [| lra]. simpl. lra.
  - apply Rle_trans with (1 := A2). apply Rle_trans with (2 * IZR (2 ^ 125)); [lra |].
    rewrite <- mult_IZR. apply IZR_le. lia.
Qed.

Lemma Fl_mono (j k : nat) (x : b32) (v : R) : (j <= k)%nat -> Fl j x v -> Fl k x v.
Proof. intros H [F N]. split; [exact F | exact (near_mono eps eps_range j k _ _ H N)]. Qed.

Lemma Fl_exact (x : b32) : is_finite x = true -> Fl 0 x (B2R x).
Proof. intro F. split; [exact F | apply near_refl, eps_range]. Qed.

Lemma Fl_neg (k : nat) (x : b32) (v : R) : Fl k x v -> Fl k (Bopp x) (- v).
Proof.
  intros [F N]. split; [rewrite is_finite_Bopp; exact F |]. rewrite opp_value. apply near_opp. exact N.
Qed.

Lemma rounded (k : nat) (y : b32) (a v : R) : (k <= 64)%nat -> near eps k a v -> normal v ->
  (Rabs a <= IZR (2 ^ 127) -> B2R y = rnd a /\ is_finite y = true) -> Fl (S k) y v.
Proof.
  intros K N [V | V] H.
  - destruct N as [t [N T]]. rewrite V, Rmult_0_l in N.
    destruct H as [E F]; [rewrite N, Rabs_R0; apply IZR_le; lia |].
    split; [exact F |]. rewrite E, N, V. rewrite (rnd_id 0 F32_0). apply near_refl, eps_range.
  - destruct (normal_wide k a v K N V) as [A1 A2].
    destruct (H A2) as [E F]. split; [exact F |]. rewrite E.
    change (S k) with (1 + k)%nat. apply (near_trans eps eps_range 1 k _ a _); [apply rnd_near; exact A1 | exact N].
Qed.

Lemma Fl_mul (j k : nat) (x y : b32) (v w : R) : (j + k <= 64)%nat -> Fl j x v -> Fl k y w ->
  normal (v * w) -> Fl (S (j + k)) (b32_mul x y) (v * w).
Proof.
  intros K [Fx Nx] [Fy Ny] V.
  apply (rounded (j + k) _ (B2R x * B2R y)); [exact K | exact (near_mul eps eps_range j k _ _ _ _ Nx Ny) | exact V |].
  intro H. apply mul_exact; assumption.
Qed.

Lemma Fl_div (j k : nat) (x y : b32) (v w : R) : (j + k <= 64)%nat -> w <> 0 -> Fl j x v -> Fl k y w ->
  normal (v / w) -> Fl (S (j + k)) (b32_div x y) (v / w).
Proof.
  intros K W [Fx Nx] [Fy Ny] V.
  apply (rounded (j + k) _ (B2R x / B2R y)); [exact K | exact (near_div eps eps_range j k _ _ _ _ Nx Ny) | exact V |].
  intro H. apply div_exact; try assumption. exact (near_nonzero eps eps_range k _ _ Ny W).
Qed.

Lemma Fl_add (k : nat) (x y : b32) (v w : R) : (k <= 64)%nat -> 0 <= v -> 0 <= w -> Fl k x v -> Fl k y w ->
  normal (v + w) -> Fl (S k) (b32_add x y) (v + w).
Proof.
  intros K P Q [Fx Nx] [Fy Ny] V.
  apply (rounded k _ (B2R x + B2R y)); [exact K | exact (near_add eps eps_range k _ _ _ _ P Q Nx Ny) | exact V |].
  intro H. apply add_exact; assumption.
Qed.

(** a difference of two exact operands *)
Lemma Fl_sub (x y : b32) : is_finite x = true -> is_finite y = true -> normal (B2R x - B2R y) ->
  Fl 1 (b32_sub x y) (B2R x - B2R y).
Proof.
  intros Fx Fy V. apply (rounded 0 _ (B2R x - B2R y)); [lia | apply near_refl, eps_range | exact V |].
  intro H. apply sub_exact; assumption.
Qed.

Lemma Fl_sqrt (k : nat) (x : b32) (v : R) : (k <= 32)%nat -> 0 < v -> Fl (k + k) x v -> normal v ->
  Fl (S k) (b32_sqrt x) (sqrt v).
Proof.
  intros K P [Fx Nx] V.
  apply (rounded k _ (sqrt (B2R x))); [lia | apply (near_sqrt eps eps_range k); [lra | exact Nx] |
    exact (range_mono 63 125 _ ltac:(lia) (range_sqrt 63 v ltac:(lia) P (range_mono 125 126 _ ltac:(lia) V))) |].
  intros _. apply sqrt_value; [exact Fx | exact (near_pos eps eps_range _ _ _ Nx P)].
Qed.

Lemma Fl_close (k : nat) (x : b32) (v : R) : (k <= 64)%nat -> Fl k x v ->
  is_finite x = true /\ close ((INR k + 1) * eps) (B2R x) v.
Proof. intros K [F N]. split; [exact F | exact (near_error eps eps_range k _ _ K N)]. Qed.

Lemma Fl_int (z : Z) : (Z.abs z < 2 ^ 24)%Z -> Fl 0 (b32_Z z) (IZR z).
Proof.
  intro H. pose proof (binary_normalize_correct 24 128 _ _ mode_NE z 0 false) as K.
  cbv zeta in K. change (F2R (Float radix2 z 0)) with (IZR z * 1) in K. rewrite Rmult_1_r in K.
  change (round radix2 (SpecFloat.fexp 24 128) (round_mode mode_NE) (IZR z)) with (rnd (IZR z)) in K.
  rewrite (rnd_id _ (F32_int z H)) in K. rewrite Rlt_bool_true in K.
  - destruct K as [E [F _]]. rewrite <- E. apply Fl_exact. exact F.
  - rewrite max32, <- abs_IZR. apply IZR_lt. lia.
Qed.

(** a decimal literal *)
Lemma Fl_dec (p : Z) (q : positive) : (Z.abs p < 2 ^ 24)%Z -> (Z.pos q < 2 ^ 24)%Z -> (p <> 0)%Z ->
  Fl 1 (b32_dec p q) (IZR p / IZR (Z.pos q)).
Proof.
  intros P Q Z0. apply (Fl_div 0 0).
  - lia.
  - apply IZR_neq. discriminate.
  - apply Fl_int. exact P.
  - apply Fl_int. lia.
  - assert (A : 1 <= Rabs (IZR p) <= 16777216) by (rewrite <- abs_IZR; split; apply IZR_le; lia).
    assert (B : 1 <= IZR (Z.pos q) <= 16777216) by (split; apply IZR_le; lia).
    right. unfold Rdiv. rewrite Rabs_mult, Rabs_inv, (Rabs_pos_eq (IZR (Z.pos q))) by lra.
    assert (I : / 16777216 <= / IZR (Z.pos q) <= 1).
    { split; [apply Rinv_le_contravar; lra | apply Rle_trans with (/ 1); [apply Rinv_le_contravar; lra | lra]]. }
    split; [apply Rle_trans with (1 * / 16777216) | apply Rle_trans with (16777216 * 1)].
    + simpl. lra.
    + apply Rmult_le_compat; lra.
    + apply Rmult_le_compat; lra.
    + rewrite Rmult_1_r. apply IZR_le. lia.
Qed.

(** ** Absolute errors, measured in units of [eps * m] *)
Definition Ab (C m : R) (x : b32) (v : R) : Prop := is_finite x = true /\ Rabs (B2R x - v) <= C * eps * m.

Lemma Ab_of_Fl (k : nat) (V m : R) (x : b32) (v : R) : (k <= 64)%nat -> Fl k x v -> Rabs v <= V * m ->
  Ab ((INR k + 1) * V) m x v.
Proof.
  intros K F B. destruct (Fl_close k x v K F) as [G E]. split; [exact G |].
  apply Rle_trans with (1 := E). pose proof (pos_INR k). pose proof eps_range.
  apply Rle_trans with ((INR k + 1) * eps * (V * m)).
  - apply Rmult_le_compat_l; [apply Rmult_le_pos; lra | exact B].
  - right. ring.
Qed.

Lemma Ab_mono (C D m : R) (x : b32) (v : R) : 0 <= m -> C <= D -> Ab C m x v -> Ab D m x v.
Proof.
  intros M H [F E]. split; [exact F |]. pose proof eps_range.
  apply Rle_trans with (1 := E). apply Rmult_le_compat_r; [exact M |]. apply Rmult_le_compat_r; lra.
Qed.

(** rounding with an absolute underflow error *)
Lemma rnd_abs (x : R) : Rabs (rnd x - x) <= eps * Rabs x + / IZR (2 ^ 149).
Proof.
  destruct (relative_error_N_FLT'_ex radix2 (-149) 24 eq_refl (fun z => negb (Z.even z)) x)
    as [t [h [T [H [_ E]]]]].
  change (round radix2 (FLT_exp (-149) 24) (Znearest (fun z => negb (Z.even z))) x) with (rnd x) in E.
  rewrite E. replace (x * (1 + t) + h - x) with (t * x + h) by ring.
  replace (u_ro radix2 24) with eps in T by (unfold u_ro, eps; simpl; lra).
  pose proof eps_range as P.
  assert (D : eps / (1 + eps) <= eps).
  { apply Rmult_le_reg_r with (1 + eps); [lra |]. unfold Rdiv. rewrite Rmult_assoc, Rinv_l by lra. nra. }
  apply Rle_trans with (1 := Rabs_triang _ _). rewrite Rabs_mult. apply Rplus_le_compat.
  - apply Rmult_le_compat_r; [apply Rabs_pos | lra].
  - apply Rle_trans with (1 := H). change (bpow radix2 (-149)) with (/ IZR (2 ^ 149)).
    assert (0 < / IZR (2 ^ 149)) by (apply Rinv_0_lt_compat, IZR_lt; reflexivity). lra.
Qed.

(** the rounding step: [a] within [C * eps * m] of [v], [|v| <= V m] *)
Lemma Ab_round (C V m a v : R) (y : b32) : 0 <= C <= 1000000 -> 0 <= V <= 100000 ->
  Rabs (a - v) <= C * eps * m -> Rabs v <= V * m -> 0 <= m -> in_range 109 m ->
  (Rabs a <= IZR (2 ^ 127) -> B2R y = rnd a /\ is_finite y = true) ->
  Ab (C + V + C * eps + / 100) m y v.
Proof.
  intros HC HV A B M R1 H. pose proof eps_range as P.
  destruct R1 as [M0 | [M1 M2]].
  - rewrite M0, Rmult_0_r in A, B. rewrite M0.
    assert (v = 0) by (destruct (Req_dec v 0) as [K | K]; [exact K | pose proof (Rabs_pos_lt v K); lra]).
    assert (a = 0) by (destruct (Req_dec (a - v) 0) as [K | K]; [lra | pose proof (Rabs_pos_lt _ K); lra]).
    subst. destruct H as [E F]; [rewrite Rabs_R0; apply IZR_le; lia |].
    split; [exact F |]. rewrite E, (rnd_id 0 F32_0), Rminus_0_r, Rabs_R0. lra.
  - rewrite Rabs_pos_eq in M1, M2 by exact M.
    assert (S : Rabs a <= (V + C * eps) * m).
    { replace a with (v + (a - v)) by ring. apply Rle_trans with (1 := Rabs_triang _ _). lra. }
    assert (Ce : 0 <= C * eps <= 1) by (unfold eps in *; split; lra).
    destruct H as [E F].
    { apply Rle_trans with (1 := S). apply Rle_trans with (131072 * IZR (2 ^ 109)).
      - apply Rmult_le_compat; lra.
      - rewrite <- mult_IZR. apply IZR_le. lia. }
    split; [exact F |]. rewrite E. replace (rnd a - v) with ((rnd a - a) + (a - v)) by ring.
    apply Rle_trans with (1 := Rabs_triang _ _). pose proof (rnd_abs a) as Q.
    assert (T : / IZR (2 ^ 149) <= / 100 * eps * m).
    { apply Rle_trans with (/ 100 * eps * / IZR (2 ^ 109)); [unfold eps; simpl; lra |].
      apply Rmult_le_compat_l; [lra | exact M1]. }
    assert (W : eps * Rabs a <= eps * ((V + C * eps) * m)) by (apply Rmult_le_compat_l; lra).
    replace ((C + V + C * eps + / 100) * eps * m)
      with (eps * ((V + C * eps) * m) + / 100 * eps * m + C * eps * m) by ring.
    lra.
Qed.

Lemma Ab_mul (C D V W m n : R) (x y : b32) (v w : R) :
  0 <= C <= 1000 -> 0 <= D <= 1000 -> 0 <= V <= 100 -> 0 <= W <= 100 -> 0 <= m -> 0 <= n ->
  Ab C m x v -> Ab D n y w -> Rabs v <= V * m -> Rabs w <= W * n -> in_range 109 (m * n) ->
  Ab (V * D + W * C + V * W + 1) (m * n) (b32_mul x y) (v * w).
Proof.
  intros HC HD HV HW M N [Fx Ex] [Fy Ey] Bv Bw R1. pose proof eps_range as P.
  assert (MN : 0 <= m * n) by (apply Rmult_le_pos; assumption).
  assert (CD : 0 <= C * D <= 1000000) by nra. assert (VD : 0 <= V * D <= 100000) by nra.
  assert (WC : 0 <= W * C <= 100000) by nra. assert (VW : 0 <= V * W <= 10000) by nra.
  apply (Ab_mono (V * D + W * C + C * D * eps + V * W + (V * D + W * C + C * D * eps) * eps + / 100));
    [exact MN | unfold eps in *; lra |].
  apply (Ab_round _ _ _ (B2R x * B2R y)); try assumption.
  - unfold eps in *; lra.
  - lra.
  - replace (B2R x * B2R y - v * w) with (v * (B2R y - w) + (B2R x - v) * w + (B2R x - v) * (B2R y - w)) by ring.
    apply Rle_trans with (1 := Rabs_triang _ _).
    assert (H1 : Rabs (v * (B2R y - w)) <= (V * m) * (D * eps * n)) by
      (rewrite Rabs_mult; apply Rmult_le_compat; try apply Rabs_pos; assumption).
    assert (H2 : Rabs ((B2R x - v) * w) <= (C * eps * m) * (W * n)) by
      (rewrite Rabs_mult; apply Rmult_le_compat; try apply Rabs_pos; assumption).
    assert (H3 : Rabs ((B2R x - v) * (B2R y - w)) <= (C * eps * m) * (D * eps * n)) by
      (rewrite Rabs_mult; apply Rmult_le_compat; try apply Rabs_pos; assumption).
    pose proof (Rabs_triang (v * (B2R y - w)) ((B2R x - v) * w)) as H4.
    replace ((V * D + W * C + C * D * eps) * eps * (m * n))
      with ((V * m) * (D * eps * n) + (C * eps * m) * (W * n) + (C * eps * m) * (D * eps * n)) by ring.
    lra.
  - rewrite Rabs_mult. replace (V * W * (m * n)) with ((V * m) * (W * n)) by ring.
    apply Rmult_le_compat; try apply Rabs_pos; assumption.
  - intro H. apply mul_exact; assumption.
Qed.

Lemma Ab_sub (C D S m : R) (x y : b32) (v w : R) :
  0 <= C <= 1000 -> 0 <= D <= 1000 -> 0 <= S <= 1000 -> 0 <= m ->
  Ab C m x v -> Ab D m y w -> Rabs (v - w) <= S * m -> in_range 109 m ->
  Ab (C + D + S + 1) m (b32_sub x y) (v - w).
Proof.
  intros HC HD HS M [Fx Ex] [Fy Ey] B R1. pose proof eps_range as P.
  apply (Ab_mono (C + D + S + (C + D) * eps + / 100)); [exact M | unfold eps in *; lra |].
  apply (Ab_round _ _ _ (B2R x - B2R y)); try assumption; try lra.
  - replace (B2R x - B2R y - (v - w)) with ((B2R x - v) + - (B2R y - w)) by ring.
    apply Rle_trans with (1 := Rabs_triang _ _). rewrite Rabs_Ropp. lra.
  - intro H. apply sub_exact; assumption.
Qed.

Lemma Ab_add (C D S m : R) (x y : b32) (v w : R) :
  0 <= C <= 1000 -> 0 <= D <= 1000 -> 0 <= S <= 1000 -> 0 <= m ->
  Ab C m x v -> Ab D m y w -> Rabs (v + w) <= S * m -> in_range 109 m ->
  Ab (C + D + S + 1) m (b32_add x y) (v + w).
Proof.
  intros HC HD HS M [Fx Ex] [Fy Ey] B R1. pose proof eps_range as P.
  apply (Ab_mono (C + D + S + (C + D) * eps + / 100)); [exact M | unfold eps in *; lra |].
  apply (Ab_round _ _ _ (B2R x + B2R y)); try assumption; try lra.
  - replace (B2R x + B2R y - (v + w)) with ((B2R x - v) + (B2R y - w)) by ring.
    apply Rle_trans with (1 := Rabs_triang _ _). lra.
  - intro H. apply add_exact; assumption.
Qed.
