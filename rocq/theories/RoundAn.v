(** * RoundAn: running error analysis of rounded arithmetic, for any format.

    [Er r k m x v]: the number [x] is finite and differs from the real [v] by at most ((1+u)^k - 1) m, where
    [m] bounds [|v|] and is zero or between 2^-r and 2^r.  One lemma per operation. *)
From Coq Require Import ZArith Reals Lra Lia Psatz Bool.
From Flocq Require Import Core.
From Verif Require Import Num Spec SpecFl RelLib.
Local Open Scope R_scope.

Lemma sqrt_near (s n a b : R) : 0 <= s -> 0 <= n -> 0 <= a <= 1 -> 0 <= b -> Rabs (s - n) <= a * n + b ->
  Rabs (sqrt s - sqrt n) <= a * sqrt n + sqrt b.
Proof.
  intros S0 N0 A B H. apply Rabs_le_inv in H.
  pose proof (sqrt_pos n) as P. pose proof (sqrt_pos b) as Q. pose proof (sqrt_pos s) as T.
  pose proof (sqrt_sqrt n N0) as PP. pose proof (sqrt_sqrt b B) as QQ.
  set (p := sqrt n) in *. set (q := sqrt b) in *. rewrite <- PP, <- QQ in H.
  assert (ap : 0 <= a * p) by (apply Rmult_le_pos; lra). assert (pq : 0 <= p * q) by (apply Rmult_le_pos; lra).
  assert (app : 0 <= a * (p * p)) by (apply Rmult_le_pos; nra).
  assert (apq : 0 <= a * (p * q)) by (apply Rmult_le_pos; lra).
  assert (aapp : 0 <= a * a * (p * p)) by (apply Rmult_le_pos; nra).
  apply Rabs_le. split.
  - destruct (Rle_dec 0 (p - a * p - q)) as [K | K]; [| lra].
    assert (p - a * p - q <= sqrt s); [| lra]. rewrite <- (sqrt_square (p - a * p - q)) by exact K. apply sqrt_le_1_alt.
    assert (q * q <= q * (p - a * p)) by (apply Rmult_le_compat_l; lra).
    assert (a * (a * (p * p)) <= 1 * (a * (p * p))) by (apply Rmult_le_compat_r; lra).
    replace ((p - a * p - q) * (p - a * p - q))
      with (p * p - 2 * (a * (p * p)) + a * (a * (p * p)) - 2 * (q * (p - a * p)) + q * q) by ring. lra.
  - assert (sqrt s <= p + (a * p + q)); [| lra]. rewrite <- (sqrt_square (p + (a * p + q))) by lra. apply sqrt_le_1_alt.
    replace ((p + (a * p + q)) * (p + (a * p + q)))
      with (p * p + 2 * (a * (p * p)) + a * a * (p * p) + 2 * (p * q) + 2 * (a * (p * q)) + q * q) by ring. lra.
Qed.

Lemma norm_lip (x y z a b c : R) :
  Rabs (sqrt (x * x + y * y + z * z) - sqrt (a * a + b * b + c * c))
  <= sqrt ((x - a) * (x - a) + (y - b) * (y - b) + (z - c) * (z - c)).
Proof.
  assert (T : forall x y z p q r, sqrt ((x + p) * (x + p) + (y + q) * (y + q) + (z + r) * (z + r))
    <= sqrt (x * x + y * y + z * z) + sqrt (p * p + q * q + r * r)).
  { clear. intros x y z p q r. set (A := x * x + y * y + z * z). set (B := p * p + q * q + r * r).
    assert (PA : 0 <= A) by (unfold A; nra). assert (PB : 0 <= B) by (unfold B; nra).
    pose proof (sqrt_pos A) as SA. pose proof (sqrt_pos B) as SB.
    rewrite <- (sqrt_square (sqrt A + sqrt B)) by lra. apply sqrt_le_1_alt.
    assert (C : x * p + y * q + z * r <= sqrt A * sqrt B).
    { rewrite <- sqrt_mult by assumption. apply Rle_trans with (Rabs (x * p + y * q + z * r)); [apply Rle_abs |].
      rewrite <- sqrt_Rsqr_abs. apply sqrt_le_1_alt. unfold Rsqr, A, B.
      pose proof (pow2_ge_0 (x * q - y * p)). pose proof (pow2_ge_0 (x * r - z * p)). pose proof (pow2_ge_0 (y * r - z * q)). nra. }
    pose proof (sqrt_sqrt A PA). pose proof (sqrt_sqrt B PB). unfold A, B in *. nra. }
  apply Rabs_le. split.
  - pose proof (T x y z (a - x) (b - y) (c - z)) as H.
    replace (x + (a - x)) with a in H by ring. replace (y + (b - y)) with b in H by ring. replace (z + (c - z)) with c in H by ring.
    replace ((a - x) * (a - x) + (b - y) * (b - y) + (c - z) * (c - z))
      with ((x - a) * (x - a) + (y - b) * (y - b) + (z - c) * (z - c)) in H by ring. lra.
  - pose proof (T a b c (x - a) (y - b) (z - c)) as H.
    replace (a + (x - a)) with x in H by ring. replace (b + (y - b)) with y in H by ring. replace (c + (z - c)) with z in H by ring. lra.
Qed.

Definition gam (u : R) (k : nat) : R := (1 + u) ^ k - 1.

Lemma range_sum' (a b : Z) (m n : R) : (0 <= a)%Z -> (0 <= b)%Z -> 0 <= m -> 0 <= n -> in_range a m -> in_range b n ->
  in_range (Z.max a b + 1) (m + n).
Proof.
  intros A B M N' I J. set (c := Z.max a b).
  pose proof (range_mono a c m ltac:(lia) I) as I'. pose proof (range_mono b c n ltac:(lia) J) as J'.
  pose proof (two_pow c ltac:(lia)) as T. pose proof (two_pow_inv c ltac:(lia)) as T'.
  destruct I' as [-> | I'].
  - rewrite Rplus_0_l. apply (range_mono c); [lia | exact J'].
  - rewrite Rabs_pos_eq in I' by lra. right. rewrite Rabs_pos_eq by lra.
    rewrite Z.pow_add_r, mult_IZR, Rinv_mult by lia. change (IZR (2 ^ 1)) with 2.
    destruct J' as [-> | J']; [| rewrite Rabs_pos_eq in J' by lra]; lra.
Qed.

Section Analysis.
  Variables (F : Type) (N : Num F) (val : F -> R) (fin : F -> Prop) (rd : R -> R).
  Variables (eps u eta : R) (hi : Z).
  Hypothesis Hu : 0 < eps /\ eps < u <= / 100000.
  Hypothesis Hhi : (0 <= hi)%Z.
  Hypothesis Heta : 0 <= eta <= (u - eps) * / IZR (2 ^ hi).
  Hypothesis rd_0 : rd 0 = 0.
  Hypothesis rd_pos : forall z, 0 <= z -> 0 <= rd z.
  Hypothesis rd_err : forall z, Rabs (rd z - z) <= eps * Rabs z + eta.
  Let ov (z : R) : Prop := Rabs z <= 2 * IZR (2 ^ hi).
  Hypothesis f_add : forall x y, fin x -> fin y -> ov (val x + val y) -> val (n_add x y) = rd (val x + val y) /\ fin (n_add x y).
  Hypothesis f_sub : forall x y, fin x -> fin y -> ov (val x - val y) -> val (n_sub x y) = rd (val x - val y) /\ fin (n_sub x y).
  Hypothesis f_mul : forall x y, fin x -> fin y -> ov (val x * val y) -> val (n_mul x y) = rd (val x * val y) /\ fin (n_mul x y).
  Hypothesis f_div : forall x y, fin x -> val y <> 0 -> ov (val x / val y) -> val (n_div x y) = rd (val x / val y) /\ fin (n_div x y).
  Hypothesis f_sqrt : forall x, fin x -> 0 <= val x -> val (n_sqrt x) = rd (sqrt (val x)) /\ fin (n_sqrt x).
  Hypothesis f_neg : forall x, fin x -> val (n_neg x) = - val x /\ fin (n_neg x).
  Hypothesis f_abs : forall x, fin x -> val (n_abs x) = Rabs (val x) /\ fin (n_abs x).

  Definition Er (r : Z) (k : nat) (m : R) (x : F) (v : R) : Prop :=
    fin x /\ Rabs (val x - v) <= gam u k * m /\ Rabs v <= m /\ in_range r m /\ (0 <= r)%Z.

  Lemma gam_0 : gam u 0 = 0. Proof using All. unfold gam. simpl. ring. Qed.
  Lemma gam_pos (k : nat) : 0 <= gam u k.
  Proof using All. unfold gam. pose proof (pow_R1_Rle (1 + u) k ltac:(lra)). lra. Qed.
  Lemma gam_mono (j k : nat) : (j <= k)%nat -> gam u j <= gam u k.
  Proof using All. intro H. unfold gam. pose proof (Rle_pow (1 + u) j k ltac:(lra) H). lra. Qed.
  Lemma gam_S (k : nat) : gam u (S k) = gam u k + u * (1 + gam u k).
  Proof using All. unfold gam. simpl. ring. Qed.
  Lemma gam_add (j k : nat) : gam u (j + k) = gam u j + gam u k + gam u j * gam u k.
  Proof using All. unfold gam. rewrite pow_add. ring. Qed.
  Lemma gam_lin (k : nat) : (k <= 200)%nat -> gam u k <= 101 / 100 * INR k * u.
  Proof using All.
    intro K. assert (P : forall n, (n <= 200)%nat -> gam u n <= (1 + INR n * u) * (INR n * u)).
    { induction n; intro Hn.
      - unfold gam. simpl. lra.
      - rewrite gam_S, S_INR. specialize (IHn ltac:(lia)). pose proof (pos_INR n) as Pn.
        assert (INR n <= 199) by (replace 199 with (INR 199) by (rewrite INR_IZR_INZ; reflexivity); apply le_INR; lia).
        pose proof (gam_pos n).
        assert (INR n * u <= 199 * / 100000) by (apply Rmult_le_compat; lra).
        set (w := INR n * u) in *. replace ((INR n + 1) * u) with (w + u) by (unfold w; ring).
        assert (0 <= w) by (unfold w; apply Rmult_le_pos; lra).
        assert (u * gam u n <= u * ((1 + w) * w)) by (apply Rmult_le_compat_l; lra).
        assert (u * (w * w) <= u * w) by (apply Rmult_le_compat_l; nra). nra. }
    specialize (P k K). pose proof (pos_INR k).
    assert (INR k <= 200) by (replace 200 with (INR 200) by (rewrite INR_IZR_INZ; reflexivity); apply le_INR; lia).
    assert (INR k * u <= 200 * / 100000) by (apply Rmult_le_compat; lra).
    assert (0 <= INR k * u) by (apply Rmult_le_pos; lra). nra.
  Qed.
  Lemma gam_small (k : nat) : (k <= 200)%nat -> gam u k <= / 100.
  Proof using All.
    intro K. pose proof (gam_lin k K). pose proof (pos_INR k).
    assert (INR k <= 200) by (replace 200 with (INR 200) by (rewrite INR_IZR_INZ; reflexivity); apply le_INR; lia).
    assert (INR k * u <= 200 * / 100000) by (apply Rmult_le_compat; lra). lra.
  Qed.
  Lemma gam_ge (k : nat) : INR k * u <= gam u k.
  Proof using All.
    induction k; [unfold gam; simpl; lra |]. rewrite gam_S, S_INR. pose proof (gam_pos k). nra.
  Qed.

  Lemma Er_m (r : Z) (k : nat) (m : R) (x : F) (v : R) : Er r k m x v -> 0 <= m.
  Proof using All. intros [_ [_ [H _]]]. pose proof (Rabs_pos v). lra. Qed.

  (** one rounding of a real [z] that stands for [v] *)
  Lemma round_one (r : Z) (k : nat) (m : R) (z v : R) (y : F) :
    Rabs (z - v) <= gam u k * m -> Rabs v <= m -> in_range r m -> (0 <= r <= hi)%Z -> (k <= 200)%nat ->
    (ov z -> val y = rd z /\ fin y) -> Er r (S k) m y v.
  Proof using All.
    intros E B I Hr K H. pose proof (gam_pos k) as G. pose proof (gam_small k K) as Gs.
    assert (M0 : 0 <= m) by (pose proof (Rabs_pos v); lra).
    assert (Z1 : Rabs z <= (1 + gam u k) * m).
    { replace z with ((z - v) + v) by ring. apply Rle_trans with (1 := Rabs_triang _ _). lra. }
    pose proof (range_mono r hi m ltac:(lia) I) as I'. pose proof (two_pow hi Hhi) as T.
    destruct H as [V Fy].
    { unfold ov. destruct I' as [I' | I']; [rewrite I', Rmult_0_r in Z1; lra |].
      rewrite Rabs_pos_eq in I' by lra. nra. }
    split; [exact Fy |]. split; [| split; [exact B | split; [exact I | lia]]].
    rewrite V. destruct I' as [I' | I'].
    - rewrite I', Rmult_0_r in *.
      assert (z = 0) by (destruct (Req_dec z 0) as [Q | Q]; [exact Q | pose proof (Rabs_pos_lt z Q); lra]). subst z. rewrite rd_0.
      exact E.
    - rewrite Rabs_pos_eq in I' by lra. rewrite gam_S.
      replace (rd z - v) with ((rd z - z) + (z - v)) by ring.
      apply Rle_trans with (1 := Rabs_triang _ _). pose proof (rd_err z) as RE.
      assert (eta <= (u - eps) * m) by (apply Rle_trans with (1 := proj2 Heta); apply Rmult_le_compat_l; lra).
      assert (eps * Rabs z <= eps * ((1 + gam u k) * m)) by (apply Rmult_le_compat_l; lra).
      assert (0 <= gam u k * m) by (apply Rmult_le_pos; lra). nra.
  Qed.

  Lemma Er_weak (r r' : Z) (k k' : nat) (m m' : R) (x : F) (v : R) : Er r k m x v -> m <= m' -> (k <= k')%nat ->
    in_range r' m' -> (0 <= r')%Z -> Er r' k' m' x v.
  Proof using All.
    intros E Hm Hk I Hr. pose proof (Er_m _ _ _ _ _ E). destruct E as [Fx [Ex [Bx _]]].
    split; [exact Fx |]. split; [| split; [lra | split; assumption]].
    apply Rle_trans with (1 := Ex). apply Rmult_le_compat; [apply gam_pos | assumption | apply gam_mono; exact Hk | exact Hm].
  Qed.
  Lemma Er_k (r : Z) (k k' : nat) (m : R) (x : F) (v : R) : Er r k m x v -> (k <= k')%nat -> Er r k' m x v.
  Proof using All. intros E H. apply (Er_weak r r k k' m m); auto; [lra | apply E | apply E]. Qed.
  Lemma Er_v (r : Z) (k : nat) (m m' : R) (x : F) (v v' : R) : Er r k m x v -> m = m' -> v = v' -> Er r k m' x v'.
  Proof using All. intros E <- <-. exact E. Qed.

  Lemma Er_exact (r : Z) (x : F) : fin x -> in_range r (val x) -> (0 <= r)%Z -> Er r 0 (Rabs (val x)) x (val x).
  Proof using All.
    intros Fx I Hr. split; [exact Fx |]. split; [| split; [lra | split; [| exact Hr]]].
    - unfold Rminus. rewrite Rplus_opp_r, Rabs_R0, gam_0. lra.
    - destruct I as [I | I]; [left; rewrite I; apply Rabs_R0 | right; rewrite Rabs_Rabsolu; exact I].
  Qed.

  Lemma Er_add (a b : Z) (j k : nat) (m n : R) (x y : F) (v w : R) : Er a j m x v -> Er b k n y w ->
    (Z.max a b + 1 <= hi)%Z -> (Nat.max j k <= 200)%nat ->
    Er (Z.max a b + 1) (S (Nat.max j k)) (m + n) (n_add x y) (v + w).
  Proof using All.
    intros X Y H K. pose proof (Er_m _ _ _ _ _ X) as M. pose proof (Er_m _ _ _ _ _ Y) as N'.
    destruct X as [Fx [Ex [Bx [Ix Rx]]]], Y as [Fy [Ey [By [Iy Ry]]]].
    apply (round_one _ (Nat.max j k) _ (val x + val y)).
    - replace (val x + val y - (v + w)) with ((val x - v) + (val y - w)) by ring.
      apply Rle_trans with (1 := Rabs_triang _ _). rewrite Rmult_plus_distr_l. apply Rplus_le_compat.
      + apply Rle_trans with (1 := Ex). apply Rmult_le_compat_r; [exact M | apply gam_mono; lia].
      + apply Rle_trans with (1 := Ey). apply Rmult_le_compat_r; [exact N' | apply gam_mono; lia].
    - apply Rle_trans with (1 := Rabs_triang _ _). lra.
    - apply range_sum'; assumption.
    - lia.
    - exact K.
    - intro O. apply f_add; assumption.
  Qed.

  Lemma Er_sub (a b : Z) (j k : nat) (m n : R) (x y : F) (v w : R) : Er a j m x v -> Er b k n y w ->
    (Z.max a b + 1 <= hi)%Z -> (Nat.max j k <= 200)%nat ->
    Er (Z.max a b + 1) (S (Nat.max j k)) (m + n) (n_sub x y) (v - w).
  Proof using All.
    intros X Y H K. pose proof (Er_m _ _ _ _ _ X) as M. pose proof (Er_m _ _ _ _ _ Y) as N'.
    destruct X as [Fx [Ex [Bx [Ix Rx]]]], Y as [Fy [Ey [By [Iy Ry]]]].
    apply (round_one _ (Nat.max j k) _ (val x - val y)).
    - replace (val x - val y - (v - w)) with ((val x - v) + - (val y - w)) by ring.
      apply Rle_trans with (1 := Rabs_triang _ _). rewrite Rabs_Ropp, Rmult_plus_distr_l. apply Rplus_le_compat.
      + apply Rle_trans with (1 := Ex). apply Rmult_le_compat_r; [exact M | apply gam_mono; lia].
      + apply Rle_trans with (1 := Ey). apply Rmult_le_compat_r; [exact N' | apply gam_mono; lia].
    - unfold Rminus. apply Rle_trans with (1 := Rabs_triang _ _). rewrite Rabs_Ropp. lra.
    - apply range_sum'; assumption.
    - lia.
    - exact K.
    - intro O. apply f_sub; assumption.
  Qed.

  Lemma Er_mul (a b : Z) (j k : nat) (m n : R) (x y : F) (v w : R) : Er a j m x v -> Er b k n y w ->
    (a + b <= hi)%Z -> (j + k <= 200)%nat ->
    Er (a + b) (S (j + k)) (m * n) (n_mul x y) (v * w).
  Proof using All.
    intros X Y H K. pose proof (Er_m _ _ _ _ _ X) as M. pose proof (Er_m _ _ _ _ _ Y) as N'.
    destruct X as [Fx [Ex [Bx [Ix Rx]]]], Y as [Fy [Ey [By [Iy Ry]]]].
    apply (round_one _ (j + k) _ (val x * val y)).
    - replace (val x * val y - v * w) with ((val x - v) * (val y - w) + (val x - v) * w + v * (val y - w)) by ring.
      rewrite gam_add.
      replace ((gam u j + gam u k + gam u j * gam u k) * (m * n))
        with (gam u j * m * (gam u k * n) + gam u j * m * n + m * (gam u k * n)) by ring.
      apply Rle_trans with (1 := Rabs_triang _ _). apply Rplus_le_compat.
      + apply Rle_trans with (1 := Rabs_triang _ _). rewrite !Rabs_mult.
        apply Rplus_le_compat; apply Rmult_le_compat; auto using Rabs_pos.
      + rewrite Rabs_mult. apply Rmult_le_compat; auto using Rabs_pos.
    - rewrite Rabs_mult. apply Rmult_le_compat; auto using Rabs_pos.
    - apply range_mul; assumption.
    - lia.
    - exact K.
    - intro O. apply f_mul; assumption.
  Qed.

  Lemma Er_neg (r : Z) (k : nat) (m : R) (x : F) (v : R) : Er r k m x v -> Er r k m (n_neg x) (- v).
  Proof using All.
    intros [Fx [Ex [Bx I]]]. destruct (f_neg x Fx) as [E Fn].
    split; [exact Fn |]. split; [| split; [rewrite Rabs_Ropp; exact Bx | exact I]].
    rewrite E. replace (- val x - - v) with (- (val x - v)) by ring. rewrite Rabs_Ropp. exact Ex.
  Qed.
  Lemma Er_abs (r : Z) (k : nat) (m : R) (x : F) (v : R) : Er r k m x v -> Er r k m (n_abs x) (Rabs v).
  Proof using All.
    intros [Fx [Ex [Bx I]]]. destruct (f_abs x Fx) as [E Fn].
    split; [exact Fn |]. split; [| split; [rewrite Rabs_Rabsolu; exact Bx | exact I]].
    rewrite E. apply Rle_trans with (2 := Ex). apply Rabs_triang_inv2.
  Qed.

  (** division, with the condition number of the divisor *)
  Lemma Er_div (a b r : Z) (j k : nat) (m n : R) (x y : F) (v w : R) : Er a j m x v -> Er b k n y w ->
    w <> 0 -> gam u k * n <= Rabs w / 100 -> in_range r (m * n / w ^ 2) -> (0 <= r <= hi)%Z -> (j + k <= 80)%nat ->
    Er r (S (S (j + k))) (m * n / w ^ 2) (n_div x y) (v / w).
  Proof using All.
    intros X Y W C I H K. pose proof (Er_m _ _ _ _ _ X) as M. pose proof (Er_m _ _ _ _ _ Y) as N'.
    destruct X as [Fx [Ex [Bx [Ix Rx]]]], Y as [Fy [Ey [By [Iy Ry]]]].
    pose proof (Rabs_pos_lt w W) as W'. pose proof (gam_pos j) as Gj. pose proof (gam_pos k) as Gk.
    assert (Y1 : 99 / 100 * Rabs w <= Rabs (val y)).
    { replace (val y) with (w + (val y - w)) by ring. pose proof (Rabs_triang_inv w (- (val y - w))) as T.
      rewrite Rabs_Ropp in T. replace (w - - (val y - w)) with (w + (val y - w)) in T by ring. lra. }
    assert (Y0 : val y <> 0) by (intro Q; rewrite Q, Rabs_R0 in Y1; lra).
    assert (W2 : w ^ 2 = Rabs w * Rabs w) by (rewrite <- (pow2_abs w); ring).
    assert (J : 0 <= m * n / w ^ 2).
    { apply Rmult_le_pos; [apply Rmult_le_pos; assumption |]. left. apply Rinv_0_lt_compat. rewrite W2. nra. }
    apply (round_one _ (S (j + k)) _ (val x / val y)).
    - replace (val x / val y - v / w) with (((val x - v) * w - v * (val y - w)) * (/ val y * / w)) by (field; split; assumption).
      rewrite !Rabs_mult, !Rabs_inv.
      assert (I1 : 0 < / Rabs (val y) <= 1011 / 1000 * / Rabs w).
      { split; [apply Rinv_0_lt_compat; lra |].
        apply Rle_trans with (/ (99 / 100 * Rabs w)); [apply Rinv_le_contravar; lra |].
        rewrite Rinv_mult. apply Rmult_le_compat_r; [left; apply Rinv_0_lt_compat; lra | lra]. }
      assert (I2 : 0 < / Rabs w) by (apply Rinv_0_lt_compat; lra).
      assert (T : Rabs ((val x - v) * w - v * (val y - w)) <= (gam u j + gam u k) * (m * n)).
      { unfold Rminus at 1. apply Rle_trans with (1 := Rabs_triang _ _). rewrite Rabs_Ropp, !Rabs_mult, Rmult_plus_distr_r.
        apply Rplus_le_compat.
        - replace (gam u j * (m * n)) with (gam u j * m * n) by ring. apply Rmult_le_compat; auto using Rabs_pos.
        - replace (gam u k * (m * n)) with (m * (gam u k * n)) by ring. apply Rmult_le_compat; auto using Rabs_pos. }
      assert (Q : (gam u j + gam u k) * (1011 / 1000) <= gam u (S (j + k))).
      { rewrite gam_S, gam_add.
        pose proof (gam_lin j ltac:(lia)) as Lj. pose proof (gam_lin k ltac:(lia)) as Lk.
        assert (INR j + INR k <= 80) by (rewrite <- plus_INR; replace 80 with (INR 80) by (rewrite INR_IZR_INZ; reflexivity); apply le_INR; lia).
        assert ((INR j + INR k) * u <= 80 * u) by (apply Rmult_le_compat_r; lra).
        assert (0 <= gam u j * gam u k) by (apply Rmult_le_pos; assumption). nra. }
      apply Rle_trans with ((gam u j + gam u k) * (m * n) * (1011 / 1000 * / Rabs w * / Rabs w)).
      + apply Rmult_le_compat; [apply Rabs_pos | apply Rmult_le_pos; lra | exact T |].
        apply Rmult_le_compat_r; lra.
      + replace ((gam u j + gam u k) * (m * n) * (1011 / 1000 * / Rabs w * / Rabs w))
          with ((gam u j + gam u k) * (1011 / 1000) * (m * n / w ^ 2)) by (rewrite W2; field; lra).
        apply Rmult_le_compat_r; assumption.
    - unfold Rdiv. rewrite Rabs_mult, Rabs_inv, W2, Rinv_mult.
      replace (m * n * (/ Rabs w * / Rabs w)) with (m * (n * / Rabs w) * / Rabs w) by ring.
      apply Rmult_le_compat_r; [left; apply Rinv_0_lt_compat; lra |].
      apply Rle_trans with (1 := Bx). rewrite <- (Rmult_1_r m) at 1. apply Rmult_le_compat_l; [exact M |].
      apply Rmult_le_reg_r with (Rabs w); [exact W' |]. rewrite Rmult_assoc, Rinv_l by lra. lra.
    - exact I.
    - exact H.
    - lia.
    - intro O. apply f_div; assumption.
  Qed.

  (** division by a number without cancellation *)
  Lemma Er_div1 (a b : Z) (j k : nat) (m : R) (x y : F) (v w : R) : Er a j m x v -> Er b k (Rabs w) y w ->
    w <> 0 -> (a + b <= hi)%Z -> (j + k <= 80)%nat ->
    Er (a + b) (S (S (j + k))) (m / Rabs w) (n_div x y) (v / w).
  Proof using All.
    intros X Y W H K. pose proof (Rabs_pos_lt w W) as W'.
    assert (Q : m * Rabs w / w ^ 2 = m / Rabs w).
    { rewrite <- (pow2_abs w). field. lra. }
    rewrite <- Q. apply (Er_div a b); auto.
    - pose proof (gam_small k ltac:(lia)). assert (gam u k * Rabs w <= / 100 * Rabs w) by (apply Rmult_le_compat_r; lra). lra.
    - rewrite Q. apply range_div; [apply X | apply Y | apply X | apply Y].
    - destruct X as [_ [_ [_ [_ ?]]]], Y as [_ [_ [_ [_ ?]]]]. lia.
  Qed.

  (** the square root of a positive number without cancellation *)
  Lemma Er_sqrt (r : Z) (k : nat) (x : F) (v : R) : Er (r + r) k v x v -> 0 < v -> (0 <= r <= hi)%Z -> (k <= 32)%nat ->
    Er r (S (S (Nat.div2 k))) (sqrt v) (n_sqrt x) (sqrt v).
  Proof using All.
    intros [Fx [Ex [Bx [I Rr]]]] V H K. pose proof (gam_pos k) as G. pose proof (gam_small k ltac:(lia)) as Gs.
    pose proof (sqrt_lt_R0 v V) as S0.
    assert (X1 : 99 / 100 * v <= val x) by (apply Rabs_le_inv in Ex; nra).
    apply (round_one _ (S (Nat.div2 k)) _ (sqrt (val x))).
    - assert (S1 : 0 <= sqrt (val x)) by apply sqrt_pos.
      assert (Q : Rabs (sqrt (val x) - sqrt v) * sqrt v <= Rabs (val x - v) * (51 / 100)).
      { assert (E : val x - v = (sqrt (val x) - sqrt v) * (sqrt (val x) + sqrt v)).
        { rewrite <- (sqrt_sqrt (val x)) at 1 by lra. rewrite <- (sqrt_sqrt v) at 1 by lra. ring. }
        rewrite E, Rabs_mult, (Rabs_pos_eq (sqrt (val x) + sqrt v)) by lra.
        assert (98 / 100 * sqrt v <= sqrt (val x)).
        { rewrite <- (sqrt_square (98 / 100 * sqrt v)) by lra. apply sqrt_le_1_alt.
          replace (98 / 100 * sqrt v * (98 / 100 * sqrt v)) with (98 / 100 * (98 / 100) * (sqrt v * sqrt v)) by ring.
          rewrite sqrt_sqrt by lra. lra. }
        rewrite Rmult_assoc. apply Rmult_le_compat_l; [apply Rabs_pos |]. lra. }
      apply Rmult_le_reg_r with (sqrt v); [exact S0 |].
      rewrite Rmult_assoc, sqrt_sqrt by lra. apply Rle_trans with (1 := Q).
      apply Rle_trans with (gam u k * v * (51 / 100)); [apply Rmult_le_compat_r; lra |].
      assert (G2 : gam u k * (51 / 100) <= gam u (S (Nat.div2 k))).
      { pose proof (gam_lin k ltac:(lia)) as L1. pose proof (gam_ge (S (Nat.div2 k))) as L2. rewrite S_INR in L2.
        assert (D : INR k <= 2 * INR (Nat.div2 k) + 1).
        { pose proof (Nat.div2_odd k) as O. apply (f_equal INR) in O. rewrite plus_INR, mult_INR in O.
          assert (INR (Nat.b2n (Nat.odd k)) <= 1) by (destruct (Nat.odd k); simpl; lra).
          change (INR 2) with 2 in O. lra. }
        assert (INR k <= 32) by (replace 32 with (INR 32) by (rewrite INR_IZR_INZ; reflexivity); apply le_INR; lia).
        pose proof (pos_INR k).
        apply Rle_trans with (2 := L2). apply Rle_trans with (101 / 100 * INR k * u * (51 / 100)); [lra |].
        replace (101 / 100 * INR k * u * (51 / 100)) with ((101 * 51 / 10000 * INR k) * u) by field.
        apply Rmult_le_compat_r; lra. }
      replace (gam u k * v * (51 / 100)) with (gam u k * (51 / 100) * v) by ring.
      apply Rmult_le_compat_r; lra.
    - rewrite Rabs_pos_eq; lra.
    - apply range_sqrt; [lia | exact V | exact I].
    - exact H.
    - pose proof (Nat.div2_odd k). lia.
    - intros _. apply f_sqrt; [exact Fx | lra].
  Qed.

  (** the norm of a vector is Lipschitz, whatever its components cancel to *)
  Lemma Er_norm (a b c r : Z) (k : nat) (m n l : R) (x y z : F) (v w t : R) :
    Er a k m x v -> Er b k n y w -> Er c k l z t -> (k <= 100)%nat ->
    in_range r (sqrt (m * m + n * n + l * l)) -> (0 <= r)%Z -> (2 * r + 1 <= hi)%Z ->
    6 * eta <= (u * / IZR (2 ^ r)) ^ 2 ->
    Er r (k + 6) (sqrt (m * m + n * n + l * l)) (n_sqrt (n_add (n_add (n_mul x x) (n_mul y y)) (n_mul z z)))
      (sqrt (v * v + w * w + t * t)).
  Proof using All.
    intros X Y Z K I Hr Hr2 Hb.
    pose proof (Er_m _ _ _ _ _ X) as Mm. pose proof (Er_m _ _ _ _ _ Y) as Mn. pose proof (Er_m _ _ _ _ _ Z) as Ml.
    destruct X as [Fx [Ex [Bx [Ix Rx]]]], Y as [Fy [Ey [By [Iy Ry]]]], Z as [Fz [Ez [Bz [Iz Rz]]]].
    pose proof (gam_pos k) as G. pose proof (gam_small k ltac:(lia)) as Gs.
    set (M := sqrt (m * m + n * n + l * l)) in *. set (V := sqrt (v * v + w * w + t * t)).
    assert (M0 : 0 <= M) by apply sqrt_pos.
    assert (MM : M * M = m * m + n * n + l * l) by (unfold M; apply sqrt_sqrt; nra).
    set (p := val x) in *. set (q := val y) in *. set (o := val z) in *.
    set (n2 := p * p + q * q + o * o).
    assert (Pn : 0 <= n2) by (unfold n2; nra).
    assert (L : Rabs (sqrt n2 - V) <= gam u k * M).
    { apply Rle_trans with (1 := norm_lip p q o v w t).
      rewrite <- (sqrt_square (gam u k * M)) by (apply Rmult_le_pos; assumption). apply sqrt_le_1_alt.
      replace (gam u k * M * (gam u k * M)) with (gam u k * gam u k * (M * M)) by ring. rewrite MM.
      assert (Sq : forall d e, Rabs d <= e -> d * d <= e * e).
      { intros d e H. pose proof (Rabs_pos d). rewrite <- (Rabs_pos_eq (d * d)) by nra. rewrite Rabs_mult. apply Rmult_le_compat; assumption. }
      pose proof (Sq _ _ Ex). pose proof (Sq _ _ Ey). pose proof (Sq _ _ Ez). nra. }
    assert (VM : V <= M).
    { apply sqrt_le_1_alt. assert (Sq : forall d e, Rabs d <= e -> d * d <= e * e).
      { intros d e H. pose proof (Rabs_pos d). rewrite <- (Rabs_pos_eq (d * d)) by nra. rewrite Rabs_mult. apply Rmult_le_compat; assumption. }
      pose proof (Sq _ _ Bx). pose proof (Sq _ _ By). pose proof (Sq _ _ Bz). lra. }
    assert (V0 : 0 <= V) by apply sqrt_pos.
    assert (Sn : sqrt n2 <= (1 + gam u k) * M).
    { apply Rabs_le_inv in L. lra. }
    assert (S2 : n2 <= 11 / 10 * (M * M)).
    { rewrite <- (sqrt_sqrt n2 Pn). pose proof (sqrt_pos n2).
      assert (sqrt n2 * sqrt n2 <= (101 / 100 * M) * (101 / 100 * M)) by (apply Rmult_le_compat; nra). nra. }
    pose proof (two_pow r Hr) as Tr. pose proof (two_pow_inv r Hr) as Tri. pose proof (two_pow hi Hhi) as Th.
    assert (Hpow : IZR (2 ^ r) * IZR (2 ^ r) * 2 <= IZR (2 ^ hi)).
    { rewrite <- mult_IZR, <- Z.pow_add_r by lia. change 2 with (IZR (2 ^ 1)). rewrite <- mult_IZR, <- Z.pow_add_r by lia.
      apply IZR_le, Z.pow_le_mono_r; lia. }
    assert (Ms : M * M <= IZR (2 ^ r) * IZR (2 ^ r)).
    { destruct I as [I | I]; [rewrite I; nra |]. rewrite Rabs_pos_eq in I by assumption. apply Rmult_le_compat; lra. }
    assert (eta1 : eta <= / 100000).
    { apply Rle_trans with (1 := proj2 Heta). pose proof (two_pow_inv hi Hhi). apply Rle_trans with (/ 100000 * 1); [apply Rmult_le_compat; lra | lra]. }
    (* the sum of squares *)
    assert (Pp : 0 <= p * p) by nra. assert (Pq : 0 <= q * q) by nra. assert (Po : 0 <= o * o) by nra.
    assert (T1 : forall f, fin f -> val f * val f <= n2 -> fin (n_mul f f) /\
      Rabs (val (n_mul f f) - val f * val f) <= eps * (val f * val f) + eta /\ val (n_mul f f) = rd (val f * val f)).
    { intros f Ff Bf. destruct (f_mul f f Ff Ff) as [E H].
      { unfold ov. rewrite Rabs_pos_eq by nra. lra. }
      split; [exact H |]. split; [| exact E]. rewrite E. apply Rle_trans with (1 := rd_err _). rewrite (Rabs_pos_eq (val f * val f)) by nra. lra. }
    destruct (T1 x Fx ltac:(unfold n2; fold p; lra)) as [F1 [E1 V1]]. fold p in E1, V1.
    destruct (T1 y Fy ltac:(unfold n2; fold q; lra)) as [F2 [E2 V2]]. fold q in E2, V2.
    destruct (T1 z Fz ltac:(unfold n2; fold o; lra)) as [F3 [E3 V3]]. fold o in E3, V3.
    set (t1 := val (n_mul x x)) in *. set (t2 := val (n_mul y y)) in *. set (t3 := val (n_mul z z)) in *.
    apply Rabs_le_inv in E1. apply Rabs_le_inv in E2. apply Rabs_le_inv in E3.
    assert (e1 : eps * n2 <= / 100000 * n2) by (apply Rmult_le_compat_r; lra).
    assert (e2 : eps * (p * p) + eps * (q * q) + eps * (o * o) = eps * n2) by (unfold n2; ring).
    assert (e3 : 0 <= eps * (p * p)) by (apply Rmult_le_pos; lra). assert (e4 : 0 <= eps * (q * q)) by (apply Rmult_le_pos; lra).
    assert (e5 : 0 <= eps * (o * o)) by (apply Rmult_le_pos; lra).
    assert (A1 : Rabs (t1 + t2) <= 101 / 100 * (p * p + q * q) + 2 * eta).
    { apply Rabs_le. assert (eps * (p * p) <= / 100000 * (p * p)) by (apply Rmult_le_compat_r; lra).
      assert (eps * (q * q) <= / 100000 * (q * q)) by (apply Rmult_le_compat_r; lra). lra. }
    destruct (f_add (n_mul x x) (n_mul y y) F1 F2) as [G1 F4].
    { unfold ov. fold t1 t2. unfold n2 in S2. lra. }
    fold t1 t2 in G1. pose proof (rd_err (t1 + t2)) as E4. rewrite <- G1 in E4.
    set (s1 := val (n_add (n_mul x x) (n_mul y y))) in *.
    assert (E4' : Rabs (s1 - (t1 + t2)) <= 102 / 100 * (eps * (p * p + q * q)) + 11 / 10 * eta).
    { apply Rle_trans with (1 := E4).
      assert (eps * Rabs (t1 + t2) <= eps * (101 / 100 * (p * p + q * q) + 2 * eta)) by (apply Rmult_le_compat_l; lra).
      assert (0 <= eps * (p * p + q * q)) by (apply Rmult_le_pos; lra).
      assert (eps * eta <= / 100000 * eta) by (apply Rmult_le_compat_r; lra). lra. }
    apply Rabs_le_inv in E4'.
    assert (A2 : Rabs (s1 + t3) <= 101 / 100 * n2 + 5 * eta).
    { apply Rabs_le. unfold n2 in *. lra. }
    destruct (f_add _ (n_mul z z) F4 F3) as [G2 F5].
    { unfold ov. fold s1 t3. lra. }
    fold s1 t3 in G2. pose proof (rd_err (s1 + t3)) as E5. rewrite <- G2 in E5.
    set (s := val (n_add (n_add (n_mul x x) (n_mul y y)) (n_mul z z))) in *.
    assert (E5' : Rabs (s - (s1 + t3)) <= 102 / 100 * (eps * n2) + 11 / 10 * eta).
    { apply Rle_trans with (1 := E5).
      assert (eps * Rabs (s1 + t3) <= eps * (101 / 100 * n2 + 5 * eta)) by (apply Rmult_le_compat_l; lra).
      assert (0 <= eps * n2) by (apply Rmult_le_pos; lra).
      assert (eps * eta <= / 100000 * eta) by (apply Rmult_le_compat_r; lra). lra. }
    apply Rabs_le_inv in E5'.
    assert (Es : Rabs (s - n2) <= 31 / 10 * eps * n2 + 6 * eta).
    { apply Rabs_le. unfold n2 in *. lra. }
    assert (P1 : 0 <= t1) by (rewrite V1; apply rd_pos; exact Pp).
    assert (P2 : 0 <= t2) by (rewrite V2; apply rd_pos; exact Pq).
    assert (P3 : 0 <= t3) by (rewrite V3; apply rd_pos; exact Po).
    assert (P4 : 0 <= s1) by (rewrite G1; apply rd_pos; lra).
    assert (Sp : 0 <= s) by (rewrite G2; apply rd_pos; lra).
    assert (Q : Rabs (sqrt s - sqrt n2) <= 31 / 10 * eps * sqrt n2 + u * M).
    { destruct I as [I | I].
      - assert (N0 : n2 = 0) by (rewrite I in S2; lra).
        assert (Z1 : p * p = 0 /\ q * q = 0 /\ o * o = 0) by (unfold n2 in N0; lra). destruct Z1 as [Z1 [Z2 Z3]].
        assert (s = 0) as ->.
        { rewrite G2, G1, V1, V2, V3, Z1, Z2, Z3. repeat (rewrite ?rd_0, ?Rplus_0_r); try rewrite rd_0; reflexivity. }
        rewrite N0, I, sqrt_0, Rminus_0_r, Rabs_R0. lra.
      - rewrite Rabs_pos_eq in I by assumption.
        apply Rle_trans with (31 / 10 * eps * sqrt n2 + sqrt (6 * eta)); [apply sqrt_near; try assumption; lra |].
        apply Rplus_le_compat_l.
        apply Rle_trans with (sqrt ((u * / IZR (2 ^ r)) ^ 2)); [apply sqrt_le_1_alt; exact Hb |].
        rewrite sqrt_pow2 by (apply Rmult_le_pos; lra). apply Rmult_le_compat_l; lra. }
    replace (k + 6)%nat with (S (k + 5)) by lia.
      apply (round_one _ (k + 5) _ (sqrt s)).
      + replace (sqrt s - V) with ((sqrt s - sqrt n2) + (sqrt n2 - V)) by ring.
        apply Rle_trans with (1 := Rabs_triang _ _). rewrite gam_add.
        pose proof (gam_ge 5) as G5. replace (INR 5) with 5 in G5 by (rewrite INR_IZR_INZ; reflexivity).
        assert (uM : 0 <= u * M) by (apply Rmult_le_pos; lra).
        assert (W1 : eps * sqrt n2 <= u * (101 / 100 * M)).
        { apply Rmult_le_compat; [lra | apply sqrt_pos | lra |].
          apply Rle_trans with (1 := Sn). apply Rmult_le_compat_r; lra. }
        assert (W2 : 5 * u * M <= gam u 5 * M) by (apply Rmult_le_compat_r; lra).
        assert (W3 : 0 <= gam u k * gam u 5 * M) by (apply Rmult_le_pos; [apply Rmult_le_pos; [exact G | apply gam_pos] | exact M0]).
        rewrite !Rmult_plus_distr_r. lra.
      + rewrite Rabs_pos_eq; assumption.
      + exact I.
      + lia.
      + lia.
      + intros _. apply f_sqrt; assumption.
  Qed.

  (** sums of two or three products of exact numbers; the products themselves may underflow *)
  Lemma round_abs (z v M g d : R) : 0 <= g -> 0 <= d -> Rabs v <= M -> Rabs (z - v) <= g * M + d * eta ->
    Rabs (rd z - v) <= (g + eps * (1 + g)) * M + (d * (1 + eps) + 1) * eta.
  Proof using All.
    intros G D V E. pose proof (rd_err z) as RE. assert (M0 : 0 <= M) by (pose proof (Rabs_pos v); lra).
    assert (Z1 : Rabs z <= M + (g * M + d * eta)).
    { replace z with (v + (z - v)) by ring. apply Rle_trans with (1 := Rabs_triang _ _). lra. }
    replace (rd z - v) with ((rd z - z) + (z - v)) by ring. apply Rle_trans with (1 := Rabs_triang _ _).
    assert (Z2 : eps * Rabs z <= eps * (M + (g * M + d * eta))) by (apply Rmult_le_compat_l; lra).
    replace ((g + eps * (1 + g)) * M + (d * (1 + eps) + 1) * eta)
      with (eps * (M + (g * M + d * eta)) + eta + (g * M + d * eta)) by ring. lra.
  Qed.
  Lemma slack (k : nat) (r : Z) (g d M : R) : in_range r M -> 0 <= M -> (0 <= r <= hi - 3)%Z -> g + 2 * (u - eps) <= gam u k -> 0 <= d <= 16 ->
    0 <= g -> M <> 0 -> g * M + d * eta <= gam u k * M.
  Proof using All.
    intros I M0 Hr G D G0 Nz. destruct I as [I | I]; [contradiction |]. rewrite Rabs_pos_eq in I by lra.
    assert (T : 8 * / IZR (2 ^ hi) <= / IZR (2 ^ r)).
    { replace hi with ((hi - 3) + 3)%Z by lia. rewrite Z.pow_add_r, mult_IZR, Rinv_mult by lia. change (IZR (2 ^ 3)) with 8.
      pose proof (two_pow r ltac:(lia)).
      assert (/ IZR (2 ^ (hi - 3)) <= / IZR (2 ^ r)) by (apply Rinv_le_contravar; [lra | apply IZR_le, Z.pow_le_mono_r; lia]). lra. }
    assert (8 * eta <= (u - eps) * M).
    { apply Rle_trans with (8 * ((u - eps) * / IZR (2 ^ hi))); [lra |].
      replace (8 * ((u - eps) * / IZR (2 ^ hi))) with ((u - eps) * (8 * / IZR (2 ^ hi))) by ring. apply Rmult_le_compat_l; lra. }
    assert (d * eta <= 16 * eta) by (apply Rmult_le_compat_r; lra).
    assert ((g + 2 * (u - eps)) * M <= gam u k * M) by (apply Rmult_le_compat_r; lra). lra.
  Qed.
  Lemma prod_ok (r : Z) (x y : F) (M : R) : fin x -> fin y -> Rabs (val x * val y) <= M -> in_range r M -> (0 <= r <= hi - 3)%Z ->
    fin (n_mul x y) /\ val (n_mul x y) = rd (val x * val y) /\
    Rabs (val (n_mul x y) - val x * val y) <= eps * Rabs (val x * val y) + 1 * eta /\ M <= IZR (2 ^ hi) / 8.
  Proof using All.
    intros X Y B I Hr. assert (M0 : 0 <= M) by (pose proof (Rabs_pos (val x * val y)); lra).
    assert (T : IZR (2 ^ r) * 8 <= IZR (2 ^ hi)).
    { replace hi with ((hi - 3) + 3)%Z by lia. rewrite Z.pow_add_r, mult_IZR by lia. change (IZR (2 ^ 3)) with 8.
      apply Rmult_le_compat_r; [lra |]. apply IZR_le, Z.pow_le_mono_r; lia. }
    pose proof (two_pow r ltac:(lia)).
    assert (M1 : M <= IZR (2 ^ r)) by (destruct I as [-> | I]; [lra | rewrite Rabs_pos_eq in I by lra; lra]).
    destruct (f_mul x y X Y) as [V Fm]; [unfold ov; lra |].
    split; [exact Fm |]. split; [exact V |]. split; [| lra]. rewrite V, Rmult_1_l. apply rd_err.
  Qed.
  Lemma Er_minor (r : Z) (x y z t : F) (M : R) : fin x -> fin y -> fin z -> fin t ->
    Rabs (val x * val y) + Rabs (val z * val t) <= M -> in_range r M -> (0 <= r <= hi - 3)%Z ->
    Er r 2 M (n_sub (n_mul x y) (n_mul z t)) (val x * val y - val z * val t).
  Proof using All.
    intros X Y Z T B I Hr. pose proof (Rabs_pos (val x * val y)). pose proof (Rabs_pos (val z * val t)).
    destruct (prod_ok r x y M X Y ltac:(lra) I Hr) as [Fa [Va [Ea Mh]]].
    destruct (prod_ok r z t M Z T ltac:(lra) I Hr) as [Fb [Vb [Eb _]]].
    set (a := n_mul x y) in *. set (b := n_mul z t) in *. set (p := val x * val y) in *. set (q := val z * val t) in *.
    assert (E0 : Rabs ((val a - val b) - (p - q)) <= eps * M + 2 * eta).
    { replace ((val a - val b) - (p - q)) with ((val a - p) + (- (val b - q))) by ring. apply Rle_trans with (1 := Rabs_triang _ _).
      rewrite Rabs_Ropp. assert (eps * (Rabs p + Rabs q) <= eps * M) by (apply Rmult_le_compat_l; lra). lra. }
    assert (Vv : Rabs (p - q) <= M) by (unfold Rminus; apply Rle_trans with (1 := Rabs_triang _ _); rewrite Rabs_Ropp; lra).
    assert (E1 : eta <= / 100000 * IZR (2 ^ hi)).
    { pose proof (two_pow hi Hhi). pose proof (two_pow_inv hi Hhi).
      assert ((u - eps) * / IZR (2 ^ hi) <= / 100000 * IZR (2 ^ hi)) by (apply Rmult_le_compat; lra). lra. }
    destruct (f_sub a b Fa Fb) as [Vs Fs].
    { unfold ov. replace (val a - val b) with ((val a - val b - (p - q)) + (p - q)) by ring. apply Rle_trans with (1 := Rabs_triang _ _).
      assert (eps * M <= 1 * M) by (apply Rmult_le_compat_r; lra). pose proof (two_pow hi Hhi). lra. }
    split; [exact Fs |]. split; [| split; [exact Vv | split; [exact I | lia]]]. rewrite Vs.
    destruct (Req_dec M 0) as [M0 | M0].
    - assert (P0 : p = 0) by (destruct (Req_dec p 0) as [Q | Q]; [exact Q | pose proof (Rabs_pos_lt p Q); lra]).
      assert (Q0 : q = 0) by (destruct (Req_dec q 0) as [Q | Q]; [exact Q | pose proof (Rabs_pos_lt q Q); lra]).
      rewrite Va, Vb, P0, Q0, rd_0, Rminus_0_r, rd_0, Rminus_0_r, Rabs_R0, M0. lra.
    - apply Rle_trans with (1 := round_abs _ _ M eps 2 ltac:(lra) ltac:(lra) Vv E0).
      apply (slack 2 r); try assumption; try lra.
      + unfold gam. simpl. assert (eps * eps <= u * u) by (apply Rmult_le_compat; lra). lra.
      + apply Rplus_le_le_0_compat; [lra | apply Rmult_le_pos; lra].
  Qed.
  Lemma Er_dot (r : Z) (x y z x' y' z' : F) (M : R) : fin x -> fin y -> fin z -> fin x' -> fin y' -> fin z' ->
    Rabs (val x * val x') + Rabs (val y * val y') + Rabs (val z * val z') <= M -> in_range r M -> (0 <= r <= hi - 3)%Z ->
    Er r 3 M (n_add (n_add (n_mul x x') (n_mul y y')) (n_mul z z')) (val x * val x' + val y * val y' + val z * val z').
  Proof using All.
    intros X Y Z X' Y' Z' B I Hr.
    pose proof (Rabs_pos (val x * val x')). pose proof (Rabs_pos (val y * val y')). pose proof (Rabs_pos (val z * val z')).
    destruct (prod_ok r x x' M X X' ltac:(lra) I Hr) as [Fa [Va [Ea Mh]]].
    destruct (prod_ok r y y' M Y Y' ltac:(lra) I Hr) as [Fb [Vb [Eb _]]].
    destruct (prod_ok r z z' M Z Z' ltac:(lra) I Hr) as [Fc [Vc [Ec _]]].
    set (a := n_mul x x') in *. set (b := n_mul y y') in *. set (c := n_mul z z') in *.
    set (p := val x * val x') in *. set (q := val y * val y') in *. set (o := val z * val z') in *.
    set (m2 := Rabs p + Rabs q) in *.
    assert (E0 : Rabs ((val a + val b) - (p + q)) <= eps * m2 + 2 * eta).
    { replace ((val a + val b) - (p + q)) with ((val a - p) + (val b - q)) by ring. apply Rle_trans with (1 := Rabs_triang _ _). unfold m2. lra. }
    assert (Vv : Rabs (p + q) <= m2) by (apply Rle_trans with (1 := Rabs_triang _ _); unfold m2; lra).
    assert (E1 : eta <= / 100000 * IZR (2 ^ hi)).
    { pose proof (two_pow hi Hhi). pose proof (two_pow_inv hi Hhi).
      assert ((u - eps) * / IZR (2 ^ hi) <= / 100000 * IZR (2 ^ hi)) by (apply Rmult_le_compat; lra). lra. }
    assert (m2 <= M) by lra. assert (0 <= m2) by (unfold m2; lra). pose proof (two_pow hi Hhi) as Th.
    destruct (f_add a b Fa Fb) as [Vs Fs].
    { unfold ov. replace (val a + val b) with ((val a + val b - (p + q)) + (p + q)) by ring. apply Rle_trans with (1 := Rabs_triang _ _).
      assert (eps * m2 <= 1 * m2) by (apply Rmult_le_compat_r; lra). lra. }
    pose proof (round_abs _ _ m2 eps 2 ltac:(lra) ltac:(lra) Vv E0) as E2. rewrite <- Vs in E2.
    set (s := n_add a b) in *. set (g := eps + eps * (1 + eps)) in *.
    assert (Ge : 0 <= eps <= g /\ g <= 21 / 10 * eps) by (unfold g; nra).
    assert (E3 : Rabs ((val s + val c) - (p + q + o)) <= g * M + 5 * eta).
    { replace ((val s + val c) - (p + q + o)) with ((val s - (p + q)) + (val c - o)) by ring. apply Rle_trans with (1 := Rabs_triang _ _).
      assert (eps * Rabs o <= g * Rabs o) by (apply Rmult_le_compat_r; lra).
      assert (g * (m2 + Rabs o) <= g * M) by (apply Rmult_le_compat_l; lra).
      assert (eps * eta <= / 100000 * eta) by (apply Rmult_le_compat_r; lra). lra. }
    assert (Vw : Rabs (p + q + o) <= M) by (apply Rle_trans with (1 := Rabs_triang _ _); lra).
    destruct (f_add s c Fs Fc) as [Vt Ft].
    { unfold ov. replace (val s + val c) with ((val s + val c - (p + q + o)) + (p + q + o)) by ring. apply Rle_trans with (1 := Rabs_triang _ _).
      assert (g * M <= 1 * M) by (apply Rmult_le_compat_r; lra). lra. }
    split; [exact Ft |]. split; [| split; [exact Vw | split; [exact I | lia]]]. rewrite Vt.
    destruct (Req_dec M 0) as [M0 | M0].
    - assert (Z0 : forall w, Rabs w <= 0 -> w = 0) by (intros w W; destruct (Req_dec w 0) as [Q | Q]; [exact Q | pose proof (Rabs_pos_lt w Q); lra]).
      assert (P0 : p = 0) by (apply Z0; unfold m2 in *; lra). assert (Q0 : q = 0) by (apply Z0; unfold m2 in *; lra).
      assert (O0 : o = 0) by (apply Z0; unfold m2 in *; lra).
      rewrite Vs, Va, Vb, Vc, P0, Q0, O0, rd_0. repeat (rewrite ?rd_0, ?Rplus_0_r). rewrite Rminus_0_r, Rabs_R0, M0. lra.
    - apply Rle_trans with (1 := round_abs _ _ M g 5 ltac:(lra) ltac:(lra) Vw E3).
      apply (slack 3 r); try assumption; try lra.
      + unfold gam, g. simpl.
        replace (eps + eps * (1 + eps) + eps * (1 + (eps + eps * (1 + eps))) + 2 * (u - eps)) with (2 * u + eps + 3 * (eps * eps) + eps * (eps * eps)) by ring.
        replace ((1 + u) * ((1 + u) * ((1 + u) * 1)) - 1) with (3 * u + 3 * (u * u) + u * (u * u)) by ring.
        assert (eps * eps <= u * u) by (apply Rmult_le_compat; lra).
        assert (eps * (eps * eps) <= u * (u * u)) by (apply Rmult_le_compat; nra). lra.
      + nra.
  Qed.

  (** a library function of absolute error [c] units with values in [-1, 1] *)
  Lemma Er_lib (c : nat) (y : F) (v : R) : fin y -> Rabs (val y - v) <= INR c * eps -> Rabs v <= 1 -> Er 0 c 1 y v.
  Proof using All.
    intros Fy E B. split; [exact Fy |]. split; [| split; [exact B | split; [| lia]]].
    - rewrite Rmult_1_r. apply Rle_trans with (2 := gam_ge c). apply Rle_trans with (1 := E).
      apply Rmult_le_compat_l; [apply pos_INR | lra].
    - right. rewrite Rabs_R1. simpl. lra.
  Qed.

  Lemma Er_const (r : Z) (y : F) (z : Z) : fin y -> val y = IZR z -> (Z.abs z <= 2 ^ r)%Z -> (0 <= r)%Z ->
    Er r 0 (Rabs (IZR z)) y (IZR z).
  Proof using All.
    intros Fy E B Hr. rewrite <- E. apply Er_exact; [exact Fy | | exact Hr]. rewrite E.
    destruct (Z.eq_dec z 0) as [-> | K]; [left; reflexivity | right].
    rewrite <- abs_IZR. pose proof (two_pow_inv r Hr). split; [| apply IZR_le; exact B].
    apply Rle_trans with 1; [lra | apply IZR_le; lia].
  Qed.

  (** the final form *)
  Lemma Er_off (r : Z) (k : nat) (m : R) (x : F) (v : R) : (k <= 90)%nat -> u <= 1001 / 1000 * eps -> Er r k m x v ->
    fin x /\ Rabs (val x - v) <= (INR k + 1) * eps * m.
  Proof using All.
    intros K U E. pose proof (Er_m _ _ _ _ _ E) as M. destruct E as [Fx [Ex _]]. split; [exact Fx |].
    apply Rle_trans with (1 := Ex). apply Rmult_le_compat_r; [exact M |].
    pose proof (gam_lin k ltac:(lia)) as L. pose proof (pos_INR k).
    assert (INR k <= 90) by (replace 90 with (INR 90) by (rewrite INR_IZR_INZ; reflexivity); apply le_INR; lia).
    apply Rle_trans with (1 := L).
    apply Rle_trans with (101 / 100 * INR k * (1001 / 1000 * eps)); [apply Rmult_le_compat_l; lra |].
    replace (101 / 100 * INR k * (1001 / 1000 * eps)) with ((101 * 1001 / 100000 * INR k) * eps) by field.
    apply Rmult_le_compat_r; lra.
  Qed.
End Analysis.

(** Bounds on products of components *)
Lemma comp_le (a : vec) : Rabs (c0 a) <= vnorm a /\ Rabs (c1 a) <= vnorm a /\ Rabs (c2 a) <= vnorm a.
Proof.
  assert (Q : forall t, t * t <= dot a a -> Rabs t <= vnorm a).
  { intros t H. unfold vnorm. rewrite <- sqrt_Rsqr_abs. apply sqrt_le_1_alt. exact H. }
  unfold dot in Q. pose proof (Rle_0_sqr (c0 a)). pose proof (Rle_0_sqr (c1 a)). pose proof (Rle_0_sqr (c2 a)). unfold Rsqr in *.
  split; [| split]; apply Q; lra.
Qed.
Lemma cauchy_abs (a b : vec) : Rabs (c0 a * c0 b) + Rabs (c1 a * c1 b) + Rabs (c2 a * c2 b) <= vnorm a * vnorm b.
Proof.
  assert (S2 : forall t, t * t = Rabs t * Rabs t) by (intro t; rewrite <- Rabs_mult, Rabs_pos_eq; [reflexivity | apply Rle_0_sqr]).
  rewrite !Rabs_mult. unfold vnorm, dot.
  rewrite (S2 (c0 a)), (S2 (c1 a)), (S2 (c2 a)), (S2 (c0 b)), (S2 (c1 b)), (S2 (c2 b)). clear S2.
  pose proof (Rabs_pos (c0 a)). pose proof (Rabs_pos (c1 a)). pose proof (Rabs_pos (c2 a)).
  pose proof (Rabs_pos (c0 b)). pose proof (Rabs_pos (c1 b)). pose proof (Rabs_pos (c2 b)).
  set (x := Rabs (c0 a)) in *. set (y := Rabs (c1 a)) in *. set (z := Rabs (c2 a)) in *.
  set (p := Rabs (c0 b)) in *. set (q := Rabs (c1 b)) in *. set (o := Rabs (c2 b)) in *.
  assert (0 <= x * p) by (apply Rmult_le_pos; lra). assert (0 <= y * q) by (apply Rmult_le_pos; lra). assert (0 <= z * o) by (apply Rmult_le_pos; lra).
  rewrite <- sqrt_mult by (repeat apply Rplus_le_le_0_compat; apply Rmult_le_pos; assumption).
  rewrite <- (sqrt_square (x * p + y * q + z * o)) by lra. apply sqrt_le_1_alt.
  pose proof (pow2_ge_0 (x * q - y * p)). pose proof (pow2_ge_0 (x * o - z * p)). pose proof (pow2_ge_0 (y * o - z * q)). nra.
Qed.
Lemma minor_le (a b : vec) (x y z p : R) : x * x + z * z <= dot a a -> y * y + p * p <= dot b b ->
  Rabs (x * y) + Rabs (z * p) <= vnorm a * vnorm b.
Proof.
  intros H1 H2. pose proof (cauchy_abs (mk3 x z 0) (mk3 y p 0)) as K. simpl in K. rewrite Rmult_0_l, Rabs_R0, Rplus_0_r in K.
  apply Rle_trans with (1 := K). unfold vnorm.
  apply Rmult_le_compat; try apply sqrt_pos; apply sqrt_le_1_alt; unfold dot in *; simpl in *; lra.
Qed.
Lemma dot_pos_nz (a : vec) : a <> vzero -> 0 < dot a a.
Proof.
  destruct a as [x y z]. unfold dot; simpl. intro Nz.
  pose proof (Rle_0_sqr x). pose proof (Rle_0_sqr y). pose proof (Rle_0_sqr z). unfold Rsqr in *.
  destruct (Rlt_dec 0 (x * x + y * y + z * z)) as [K | K]; [exact K |].
  exfalso. apply Nz. unfold vzero. assert (Q : forall t : R, t * t <= 0 -> t = 0) by (intros; nra). f_equal; apply Q; lra.
Qed.
