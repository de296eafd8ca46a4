(** * B64Per: rounding error of the semimajor axis computed from the period, in double precision *)
From Coq Require Import ZArith Reals Lra Lia Psatz Bool.
From Flocq Require Import Core IEEE754.BinarySingleNaN.
From Verif Require Import Num NumB64 NumR SpecFl SpecFl64 SpecFlV SpecFlPer RelLib OrbIntegrals OrbFacts B64Lib B64Acc B64Rel B64Closed.
Local Open Scope R_scope.

Lemma sq_range (e : Z) (v : R) : (0 <= e)%Z -> in_range e v -> in_range (e + e) (v ^ 2).
Proof. intros E H. replace (v ^ 2) with (v * v) by ring. apply range_mul; assumption. Qed.
Lemma pi_range : in_range 2 PI.
Proof. right. pose proof PI_digits as P. rewrite Rabs_pos_eq by lra. simpl. lra. Qed.
Lemma Fl_pi_sq : Fl 3 (b64_mul b64_pi b64_pi) (PI ^ 2).
Proof.
  apply (Fl_sq 1); [lia | exact Fl_pi |].
  apply (range_mono (2 + 2) 1020); [lia |]. exact (sq_range 2 PI ltac:(lia) pi_range).
Qed.

(** a cube root divides the number of roundings by three *)
Lemma near_cube (u : R) (k : nat) (x y : R) : 0 < u -> 0 < x -> 0 < y -> near u (3 * k) (x ^ 3) (y ^ 3) -> near u k x y.
Proof.
  intros U X Y [t [E [B1 B2]]]. exists (x / y). split; [field; lra |].
  assert (Q : 0 < x / y) by (apply Rdiv_lt_0_compat; assumption).
  assert (T : (x / y) ^ 3 = t).
  { replace ((x / y) ^ 3) with (x ^ 3 / y ^ 3) by (field; lra). rewrite E. field. lra. }
  rewrite <- T in B1, B2. clear T E t. set (q := x / y) in *. clearbody q.
  assert (P : 0 < (1 + u) ^ k) by (apply pow_lt; lra).
  replace ((1 + u) ^ (3 * k)) with (((1 + u) ^ k) ^ 3) in B1, B2 by (rewrite <- pow_mult; f_equal; lia).
  assert (B1' : (/ (1 + u) ^ k) ^ 3 <= q ^ 3) by (rewrite pow_inv; exact B1).
  set (p := (1 + u) ^ k) in *. clearbody p. assert (Pi : 0 < / p) by (apply Rinv_0_lt_compat; exact P).
  assert (C : forall a b, 0 < a -> 0 < b -> a ^ 3 <= b ^ 3 -> a <= b).
  { intros a b A B H. destruct (Rle_or_lt a b) as [L | L]; [exact L |]. exfalso.
    assert (D : 0 < (a - b) * (a * a + a * b + b * b)) by (apply Rmult_lt_0_compat; [lra | nra]).
    replace ((a - b) * (a * a + a * b + b * b)) with (a ^ 3 - b ^ 3) in D by ring. lra. }
  split; apply C; assumption.
Qed.

(** the chain of operations of [a_from_period], the constant left open *)
Lemma from_period (L : libm64) (c j : nat) (P K mu : b64) (p : R) : cube_root64 L c -> (c <= 100)%nat -> (j <= 6)%nat ->
  Fl j P p -> in_range 300 p -> 0 < p -> Fl 3 K (PI ^ 2) -> good64 300 mu -> 0 < B2R mu ->
  forall a, 0 < a -> a ^ 3 = p ^ 2 * B2R mu / (4 * PI ^ 2) ->
  exists k : nat, (3 * k < 2 * j + 10)%nat /\
  off64 (INR c + INR k + 2) a (d_cbrt L (b64_div (b64_div (b64_mul (b64_mul P P) mu) (b64_Z 4)) K)) a.
Proof.
  intros HL Hc Hj FP Rp Pp FK [Fm Rm] Pm a Pa Ea.
  pose proof PI_RGT_0 as PP. assert (PP2 : 0 < PI ^ 2) by (apply pow_lt; exact PP).
  assert (Pp2 : 0 < p ^ 2) by (apply pow_lt; exact Pp).
  set (x := b64_div _ K).
  assert (Fx : Fl (2 * j + 7) x (a ^ 3)).
  { pose proof (sq_range 300 p ltac:(lia) Rp) as R1.
    pose proof (range_mul (300 + 300) 300 _ _ ltac:(lia) ltac:(lia) R1 Rm) as R2.
    assert (R4 : in_range 2 4) by (right; rewrite Rabs_pos_eq by lra; simpl; lra).
    pose proof (range_div (300 + 300 + 300) 2 _ _ ltac:(lia) ltac:(lia) R2 R4) as R3.
    pose proof (range_div (300 + 300 + 300 + 2) (2 + 2) _ _ ltac:(lia) ltac:(lia) R3 (sq_range 2 PI ltac:(lia) pi_range)) as R5.
    replace (a ^ 3) with (p ^ 2 * B2R mu / 4 / PI ^ 2) by (rewrite Ea; field; lra).
    apply (Fl_mono (S ((S (S (j + j) + 0) + 1) + 3))); [lia |].
    apply (Fl_div (S (S (j + j) + 0) + 1) 3); [lia | lra | | exact FK | apply (range_mono (300 + 300 + 300 + 2 + (2 + 2)) 1020 _ ltac:(lia) R5)].
    replace (S (S (j + j) + 0) + 1)%nat with (S (S (S (j + j) + 0) + 0)) by lia.
    apply (Fl_div (S (S (j + j) + 0)) 0); [lia | lra | | apply (Fl_int 4); lia | apply (range_mono (300 + 300 + 300 + 2) 1020 _ ltac:(lia) R3)].
    apply (Fl_mul (S (j + j)) 0); [lia | | apply Fl_exact; exact Fm | apply (range_mono (300 + 300 + 300) 1020 _ ltac:(lia) R2)].
    apply (Fl_sq j); [lia | exact FP | apply (range_mono (300 + 300) 1020 _ ltac:(lia) R1)]. }
  destruct Fx as [Ffx Nx].
  assert (K3 : exists k : nat, (3 * k < 2 * j + 10 /\ 2 * j + 7 <= 3 * k)%nat).
  { exists ((2 * j + 9) / 3)%nat. pose proof (Nat.div_mod (2 * j + 9) 3 ltac:(lia)). pose proof (Nat.mod_upper_bound (2 * j + 9) 3 ltac:(lia)). lia. }
  destruct K3 as [k [K1 K2]]. exists k. split; [exact K1 |].
  pose proof eps_range as Ev. assert (Pa3 : 0 < a ^ 3) by (apply pow_lt; exact Pa).
  apply (near_mono eps eps_range _ (3 * k)) in Nx; [| lia].
  assert (Xp : 0 < B2R x) by (apply (near_pos eps eps_range _ _ _ Nx Pa3)).
  set (y := cbrt (B2R x)). assert (Yp : 0 < y) by (apply cbrt_pos; exact Xp).
  assert (Y3 : y ^ 3 = B2R x) by (apply cbrt_pow; exact Xp).
  rewrite <- Y3 in Nx. apply (near_cube eps k y a ltac:(lra) Yp Pa) in Nx.
  assert (Nk : near eps k y a -> Rabs (y - a) <= (INR k + 1) * eps * Rabs a) by (apply (near_error eps eps_range); lia).
  apply Nk in Nx. rewrite (Rabs_pos_eq a) in Nx by lra.
  destruct (HL x y Ffx Yp Y3) as [Fo Eo]. split; [exact Fo |].
  change (/ IZR (2 ^ 53)) with eps in *. 
  assert (Ik : 0 <= INR k <= 7) by (split; [apply pos_INR | replace 7 with (INR 7) by (simpl; lra); apply le_INR; lia]).
  assert (Ic : 0 <= INR c <= 100) by (split; [apply pos_INR | replace 100 with (INR 100) by (rewrite INR_IZR_INZ; simpl; lra); apply le_INR; lia]).
  replace (B2R (d_cbrt L x) - a) with ((B2R (d_cbrt L x) - y) + (y - a)) by ring.
  eapply Rle_trans; [apply Rabs_triang |].
  assert (Ye : y <= a + (INR k + 1) * eps * a) by (apply Rabs_le_inv in Nx; lra).
  assert (S1 : INR c * eps * y <= INR c * eps * (a + (INR k + 1) * eps * a)).
  { apply Rmult_le_compat_l; [apply Rmult_le_pos; lra | exact Ye]. }
  assert (S2 : INR c * eps * ((INR k + 1) * eps * a) <= eps * a).
  { replace (INR c * eps * ((INR k + 1) * eps * a)) with (INR c * (INR k + 1) * eps * (eps * a)) by ring.
    rewrite <- (Rmult_1_l (eps * a)) at 2. apply Rmult_le_compat_r; [apply Rmult_le_pos; lra |]. 
    apply Rle_trans with (100 * 8 * / 100000); [| lra]. apply Rmult_le_compat; [apply Rmult_le_pos; lra | lra | apply Rmult_le_compat; lra | lra]. }
  lra.
Qed.

Lemma axis_ok (L : libm64) (c : nat) : cube_root64 L c -> (c <= 100)%nat ->
  forall P mu : b64, good64 300 P -> good64 300 mu -> 0 < B2R P -> 0 < B2R mu ->
  forall a : R, 0 < a -> 4 * PI ^ 2 * a ^ 3 = B2R mu * B2R P ^ 2 ->
  off64 (INR c + 5) a (@a_from_period _ (Num_B64 L) P mu) a.
Proof.
  intros HL Hc P mu [FP RP] Gm PP Pm a Pa E.
  assert (E' : a ^ 3 = B2R P ^ 2 * B2R mu / (4 * PI ^ 2)).
  { pose proof PI_RGT_0. replace (a ^ 3) with (4 * PI ^ 2 * a ^ 3 / (4 * PI ^ 2)) by (field; lra). rewrite E. f_equal. ring. }
  destruct (from_period L c 0 P _ mu (B2R P) HL Hc ltac:(lia) (Fl_exact P FP) RP PP Fl_pi_sq Gm Pm a Pa E') as [k [Hk [Fo Eo]]].
  split; [exact Fo |]. apply Rle_trans with (1 := Eo).
  apply Rmult_le_compat_r; [lra |]. apply Rmult_le_compat_r; [left; apply Rinv_0_lt_compat; apply IZR_lt; lia |].
  assert (INR k <= 3) by (replace 3 with (INR 3) by (simpl; lra); apply le_INR; lia). lra.
Qed.

(** from the axis to the period and back *)
Lemma trip_ok (L : libm64) (c : nat) : cube_root64 L c -> (c <= 100)%nat ->
  forall a mu : b64, good64 300 a -> good64 300 mu -> 0 < B2R a -> 0 < B2R mu -> in_range 550 (B2R a ^ 3 / B2R mu) ->
  off64 (INR c + 9) (B2R a) (@a_from_period _ (Num_B64 L) (@orb_period _ (Num_B64 L) a mu) mu) (B2R a).
Proof.
  intros HL Hc a mu [Fa Ra] [Fm Rm] Pa Pm R2.
  pose proof PI_RGT_0 as PP.
  assert (Q : 0 < B2R a ^ 3 / B2R mu) by (apply Rdiv_lt_0_compat; [apply pow_lt; exact Pa | exact Pm]).
  assert (R1 : in_range (300 + (300 + 300)) (B2R a ^ 3)).
  { replace (B2R a ^ 3) with (B2R a * (B2R a) ^ 2) by ring. apply range_mul; [lia | lia | exact Ra | apply sq_range; [lia | exact Ra]]. }
  assert (Rs : in_range 275 (sqrt (B2R a ^ 3 / B2R mu))) by (apply range_sqrt; [lia | exact Q | exact R2]).
  assert (FP : Fl 6 (@orb_period _ (Num_B64 L) a mu) (2 * PI * sqrt (B2R a ^ 3 / B2R mu))).
  { change (@orb_period _ (Num_B64 L) a mu) with (b64_mul (b64_mul (b64_Z 2) b64_pi) (b64_sqrt (b64_div (b64_mul a (b64_mul a a)) mu))).
    apply (Fl_mul 2 3); [lia | exact Fl_two_pi | |].
    - apply (Fl_sqrt 2); [lia | exact Q | | apply (range_mono 550 1020 _ ltac:(lia) R2)].
      apply (Fl_mono 3); [lia |]. apply (Fl_div 2 0); [lia | lra | | apply Fl_exact; exact Fm | apply (range_mono 550 1020 _ ltac:(lia) R2)].
      apply (Fl_cube 0); [lia | apply Fl_exact; exact Fa | apply (range_mono (300 + (300 + 300)) 1020 _ ltac:(lia) R1)].
    - apply (range_mono (3 + 275) 1020); [lia |]. apply range_mul; [lia | lia | exact two_pi_range | exact Rs]. }
  assert (Rp : in_range 300 (2 * PI * sqrt (B2R a ^ 3 / B2R mu))).
  { apply (range_mono (3 + 275)); [lia |]. apply range_mul; [lia | lia | exact two_pi_range | exact Rs]. }
  assert (Pp : 0 < 2 * PI * sqrt (B2R a ^ 3 / B2R mu)) by (apply Rmult_lt_0_compat; [lra | apply sqrt_lt_R0; exact Q]).
  assert (E : B2R a ^ 3 = (2 * PI * sqrt (B2R a ^ 3 / B2R mu)) ^ 2 * B2R mu / (4 * PI ^ 2)).
  { replace ((2 * PI * sqrt (B2R a ^ 3 / B2R mu)) ^ 2) with (4 * PI ^ 2 * (sqrt (B2R a ^ 3 / B2R mu) * sqrt (B2R a ^ 3 / B2R mu))) by ring.
    rewrite sqrt_sqrt by lra. field. lra. }
  destruct (from_period L c 6 _ _ mu _ HL Hc ltac:(lia) FP Rp Pp Fl_pi_sq (conj Fm Rm) Pm (B2R a) Pa E) as [k [Hk [Fo Eo]]].
  split; [exact Fo |]. apply Rle_trans with (1 := Eo).
  apply Rmult_le_compat_r; [lra |]. apply Rmult_le_compat_r; [left; apply Rinv_0_lt_compat; apply IZR_lt; lia |].
  assert (INR k <= 7) by (replace 7 with (INR 7) by (simpl; lra); apply le_INR; lia). lra.
Qed.
