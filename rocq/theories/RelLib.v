(** * RelLib: numbers equal up to [k] factors between 1/(1+u) and 1+u. *)
From Coq Require Import ZArith Reals Lra Lia Psatz.
From Verif Require Import SpecFl.
Local Open Scope R_scope.

Definition near (u : R) (k : nat) (a b : R) : Prop :=
  exists t, a = b * t /\ / (1 + u) ^ k <= t <= (1 + u) ^ k.

Section Near.
  Variable u : R.
  Hypothesis U : 0 < u <= / 100000.

  Lemma one_pow (k : nat) : 1 <= (1 + u) ^ k.
  Proof using U. apply pow_R1_Rle. lra. Qed.

  Lemma inv_pow (k : nat) : 0 < / (1 + u) ^ k <= 1.
  Proof using U.
    pose proof (one_pow k) as P. split.
    - apply Rinv_0_lt_compat. lra.
    - apply Rle_trans with (/ 1); [apply Rinv_le_contravar; lra | lra].
  Qed.

  Lemma near_refl (k : nat) (a : R) : near u k a a.
  Proof using U. exists 1. pose proof (one_pow k). pose proof (inv_pow k). split; [ring | lra]. Qed.

  Lemma near_mono (j k : nat) (a b : R) : (j <= k)%nat -> near u j a b -> near u k a b.
  Proof using U.
    intros H [t [E T]]. exists t. split; [exact E |].
    assert (P : (1 + u) ^ j <= (1 + u) ^ k) by (apply Rle_pow; [lra | exact H]).
    pose proof (one_pow j) as J.
    assert (Q : / (1 + u) ^ k <= / (1 + u) ^ j) by (apply Rinv_le_contravar; lra).
    lra.
  Qed.

  Lemma near_pos (k : nat) (a b : R) : near u k a b -> 0 < b -> 0 < a.
  Proof using U.
    intros [t [E T]] B. pose proof (inv_pow k). rewrite E. apply Rmult_lt_0_compat; lra.
  Qed.

  Lemma near_nonzero (k : nat) (a b : R) : near u k a b -> b <> 0 -> a <> 0.
  Proof using U.
    intros [t [E T]] B. pose proof (inv_pow k). rewrite E. apply Rmult_integral_contrapositive_currified; lra.
  Qed.

  Lemma near_opp (k : nat) (a b : R) : near u k a b -> near u k (- a) (- b).
  Proof using. intros [t [E T]]. exists t. split; [rewrite E; ring | exact T]. Qed.

  Lemma near_trans (j k : nat) (a b c : R) : near u j a b -> near u k b c -> near u (j + k) a c.
  Proof using U.
    intros [s [E S]] [t [E' T]]. exists (s * t). split; [rewrite E, E'; ring |].
    rewrite pow_add, Rinv_mult.
    pose proof (inv_pow j). pose proof (inv_pow k).
    split; apply Rmult_le_compat; lra.
  Qed.

  Lemma near_mul (j k : nat) (a b c d : R) :
    near u j a b -> near u k c d -> near u (j + k) (a * c) (b * d).
  Proof using U.
    intros [s [E S]] [t [E' T]]. exists (s * t). split; [rewrite E, E'; ring |].
    rewrite pow_add, Rinv_mult.
    pose proof (inv_pow j). pose proof (inv_pow k).
    split; apply Rmult_le_compat; lra.
  Qed.

  Lemma near_inv (k : nat) (a b : R) : near u k a b -> near u k (/ a) (/ b).
  Proof using U.
    intros [t [E T]]. exists (/ t). split; [rewrite E; apply Rinv_mult |].
    pose proof (inv_pow k). pose proof (one_pow k). split.
    - apply Rinv_le_contravar; lra.
    - rewrite <- (Rinv_inv ((1 + u) ^ k)). apply Rinv_le_contravar; lra.
  Qed.

  Lemma near_div (j k : nat) (a b c d : R) :
    near u j a b -> near u k c d -> near u (j + k) (a / c) (b / d).
  Proof using U. intros A C. apply near_mul; [exact A | apply near_inv; exact C]. Qed.

  Lemma near_sqrt (k : nat) (a b : R) : 0 <= b -> near u (k + k) a b -> near u k (sqrt a) (sqrt b).
  Proof using U.
    intros B [t [E T]].
    pose proof (inv_pow (k + k)) as I. pose proof (one_pow k) as O.
    exists (sqrt t). split; [rewrite E; apply sqrt_mult; lra |].
    assert (S : sqrt ((1 + u) ^ (k + k)) = (1 + u) ^ k).
    { rewrite pow_add. apply sqrt_square. lra. }
    split.
    - rewrite <- S, <- sqrt_inv. apply sqrt_le_1_alt. lra.
    - rewrite <- S. apply sqrt_le_1_alt. lra.
  Qed.

  (** sums of numbers of the same sign *)
  Lemma near_add (k : nat) (a b c d : R) : 0 <= b -> 0 <= d -> near u k a b -> near u k c d ->
    near u k (a + c) (b + d).
  Proof using U.
    intros B D [s [E S]] [t [E' T]].
    destruct (Req_dec (b + d) 0) as [Z | Z].
    - exists 1. pose proof (one_pow k). pose proof (inv_pow k). split; [| lra].
      assert (b = 0) by lra. assert (d = 0) by lra. subst. ring.
    - assert (P : 0 < b + d) by lra. exists ((b * s + d * t) / (b + d)). split; [rewrite E, E'; field; lra |].
      split.
      + apply Rmult_le_reg_r with (b + d); [exact P |]. unfold Rdiv.
        rewrite Rmult_assoc, Rinv_l, Rmult_1_r by lra.
        apply Rle_trans with (b * / (1 + u) ^ k + d * / (1 + u) ^ k); [lra |].
        apply Rplus_le_compat; apply Rmult_le_compat_l; lra.
      + apply Rmult_le_reg_r with (b + d); [exact P |]. unfold Rdiv.
        rewrite Rmult_assoc, Rinv_l, Rmult_1_r by lra.
        apply Rle_trans with (b * (1 + u) ^ k + d * (1 + u) ^ k); [| lra].
        apply Rplus_le_compat; apply Rmult_le_compat_l; lra.
  Qed.

  (** [k] factors amount to a relative error of at most [(k + 1) u] for small [k] *)
  Lemma pow_upper (k : nat) : (INR k + 1) * (INR k * u) <= 1 -> (1 + u) ^ k <= 1 + INR k * u + (INR k) ^ 2 * u ^ 2.
  Proof using U.
    induction k as [| k IH]; intro H; [simpl; lra |].
    rewrite S_INR in *. pose proof (pos_INR k) as K.
    assert (H' : (INR k + 1) * (INR k * u) <= 1) by nra.
    specialize (IH H'). rewrite <- tech_pow_Rmult.
    apply Rle_trans with ((1 + u) * (1 + INR k * u + INR k ^ 2 * u ^ 2));
      [apply Rmult_le_compat_l; lra |].
    assert (C : INR k ^ 2 * u ^ 3 <= (INR k + 1) * u ^ 2).
    { assert (INR k * (INR k * u) <= 1) by nra.
      assert (INR k ^ 2 * u <= 1) by nra.
      assert (0 <= u ^ 2) by nra. replace (INR k ^ 2 * u ^ 3) with ((INR k ^ 2 * u) * u ^ 2) by ring. nra. }
    nra.
  Qed.

  Lemma le_64 (k : nat) : (k <= 64)%nat -> INR k <= 64.
  Proof using. intro K. apply le_INR in K. rewrite (INR_IZR_INZ 64) in K. exact K. Qed.

  Lemma small_k (k : nat) : (k <= 64)%nat -> (INR k + 1) * (INR k * u) <= 1 /\ INR k ^ 2 * u <= 1.
  Proof using U.
    intro K. apply le_64 in K. pose proof (pos_INR k).
    assert (INR k * INR k <= 4096) by nra. nra.
  Qed.

  Lemma near_error (k : nat) (a b : R) : (k <= 64)%nat ->
    near u k a b -> Rabs (a - b) <= (INR k + 1) * u * Rabs b.
  Proof using U.
    intros K64 [t [E T]]. destruct (small_k k K64) as [H H2]. pose proof (pow_upper k H) as P. pose proof (one_pow k) as O.
    pose proof (pos_INR k) as K.
    assert (Q : (1 + u) ^ k <= 1 + (INR k + 1) * u) by nra.
    assert (L : 1 - (INR k + 1) * u <= / (1 + u) ^ k).
    { apply Rmult_le_reg_r with ((1 + u) ^ k); [lra |]. rewrite Rinv_l by lra.
      destruct (Rle_dec 1 ((INR k + 1) * u)); nra. }
    replace (a - b) with (b * (t - 1)) by (rewrite E; ring).
    rewrite Rabs_mult, Rmult_comm. apply Rmult_le_compat_r; [apply Rabs_pos |].
    apply Rabs_le. lra.
  Qed.

  (** factors between 1/2 and 2 *)
  Lemma near_size (k : nat) (a b : R) : (k <= 64)%nat -> near u k a b ->
    Rabs b / 2 <= Rabs a <= 2 * Rabs b.
  Proof using U.
    intros H N. pose proof (near_error k a b H N) as E.
    pose proof (Rabs_pos b) as B. pose proof (pos_INR k) as K.
    pose proof (Rabs_triang_inv a b) as T1. pose proof (Rabs_triang_inv b a) as T2.
    rewrite (Rabs_minus_sym b a) in T2.
    assert (S : (INR k + 1) * u <= / 2).
    { apply le_64 in H. nra. }
    assert ((INR k + 1) * u * Rabs b <= / 2 * Rabs b) by (apply Rmult_le_compat_r; lra). lra.
  Qed.
End Near.

(** ** Ranges *)
Lemma two_pow (e : Z) : (0 <= e)%Z -> 1 <= IZR (2 ^ e).
Proof. intro H. apply IZR_le. pose proof (Z.pow_pos_nonneg 2 e ltac:(lia) H). lia. Qed.

Lemma two_pow_inv (e : Z) : (0 <= e)%Z -> 0 < / IZR (2 ^ e) <= 1.
Proof.
  intro H. pose proof (two_pow e H). split; [apply Rinv_0_lt_compat; lra |].
  apply Rle_trans with (/ 1); [apply Rinv_le_contravar; lra | lra].
Qed.

Lemma range_mono (d e : Z) (v : R) : (0 <= d <= e)%Z -> in_range d v -> in_range e v.
Proof.
  intros H [V | V]; [left; exact V | right].
  assert (P : IZR (2 ^ d) <= IZR (2 ^ e)) by (apply IZR_le, Z.pow_le_mono_r; lia).
  pose proof (two_pow d ltac:(lia)).
  assert (/ IZR (2 ^ e) <= / IZR (2 ^ d)) by (apply Rinv_le_contravar; lra). lra.
Qed.

Lemma range_mul (d e : Z) (v w : R) : (0 <= d)%Z -> (0 <= e)%Z -> in_range d v -> in_range e w ->
  in_range (d + e) (v * w).
Proof.
  intros D E [V | V] [W | W]; [left; rewrite V; ring | left; rewrite V; ring | left; rewrite W; ring | right].
  rewrite Z.pow_add_r, mult_IZR, Rinv_mult, Rabs_mult by lia.
  pose proof (two_pow_inv d D). pose proof (two_pow_inv e E).
  split; apply Rmult_le_compat; try lra; apply Rabs_pos.
Qed.

Lemma range_inv (e : Z) (v : R) : (0 <= e)%Z -> in_range e v -> in_range e (/ v).
Proof.
  intros E [V | V]; [left; rewrite V; apply Rinv_0 | right].
  rewrite Rabs_inv. pose proof (two_pow_inv e E) as P. pose proof (two_pow e E). split.
  - apply Rinv_le_contravar; lra.
  - rewrite <- (Rinv_inv (IZR (2 ^ e))). apply Rinv_le_contravar; lra.
Qed.

Lemma range_div (d e : Z) (v w : R) : (0 <= d)%Z -> (0 <= e)%Z -> in_range d v -> in_range e w ->
  in_range (d + e) (v / w).
Proof. intros D E V W. apply range_mul; auto. apply range_inv; assumption. Qed.

Lemma range_opp (e : Z) (v : R) : in_range e v -> in_range e (- v).
Proof. intros [V | V]; [left; lra | right; rewrite Rabs_Ropp; exact V]. Qed.

(** powers below a power in range *)
Lemma range_pow (e : Z) (m n : nat) (v : R) : (0 <= e)%Z -> (1 <= m <= n)%nat -> in_range e (v ^ n) ->
  in_range e (v ^ m).
Proof.
  intros E H [V | V].
  - left. destruct (Req_dec v 0) as [Z | Z]; [rewrite Z, pow_i by lia; reflexivity |].
    exfalso. exact (pow_nonzero v n Z V).
  - right. rewrite <- RPow_abs in *. pose proof (Rabs_pos v) as P. set (x := Rabs v) in *.
    pose proof (two_pow e E). pose proof (two_pow_inv e E).
    destruct (Rle_dec 1 x) as [X | X].
    + assert (x ^ m <= x ^ n) by (apply Rle_pow; [exact X | lia]).
      assert (1 <= x ^ m) by (apply pow_R1_Rle; exact X). lra.
    + assert (x ^ m <= 1) by (rewrite <- (pow1 m); apply pow_incr; lra).
      assert (x ^ n <= x ^ m).
      { replace n with (m + (n - m))%nat by lia. rewrite pow_add.
        assert (x ^ (n - m) <= 1) by (rewrite <- (pow1 (n - m)); apply pow_incr; lra).
        assert (0 <= x ^ m) by (apply pow_le; exact P). nra. }
      lra.
Qed.

Lemma range_sqrt (e : Z) (v : R) : (0 <= e)%Z -> 0 < v -> in_range (e + e) v -> in_range e (sqrt v).
Proof.
  intros E P [V | V]; [lra | right]. rewrite Rabs_pos_eq in V by lra. rewrite Rabs_pos_eq by apply sqrt_pos.
  pose proof (two_pow e E) as T. pose proof (two_pow_inv e E) as I.
  rewrite Z.pow_add_r, mult_IZR, Rinv_mult in V by lia. split.
  - rewrite <- (sqrt_square (/ IZR (2 ^ e))) by lra. apply sqrt_le_1_alt. lra.
  - rewrite <- (sqrt_square (IZR (2 ^ e))) by lra. apply sqrt_le_1_alt. lra.
Qed.

Lemma range_between (e : Z) (v : R) : / IZR (2 ^ e) <= v <= IZR (2 ^ e) -> (0 <= e)%Z -> in_range e v.
Proof. intros H E. right. pose proof (two_pow_inv e E). rewrite Rabs_pos_eq by lra. exact H. Qed.
