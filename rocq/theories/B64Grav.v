(** * B64Grav: rounding errors of the gravity models in double precision. *)
From Coq Require Import ZArith Reals Lra Lia Psatz Bool List String.
From Flocq Require Import Core IEEE754.BinarySingleNaN.
From Verif Require Import Num NumB64 SpecFl RelLib SpecGrav Gravity GravFacts B64Lib B64Acc B64Rel B64Closed.
Import ListNotations.
Local Open Scope R_scope.

Lemma range_sum (e : Z) (v w : R) : (0 <= e)%Z -> 0 <= v -> 0 <= w -> in_range e v -> in_range e w ->
  in_range (e + 1) (v + w).
Proof.
  intros E V W R1 R2. pose proof (two_pow e E) as T. pose proof (two_pow_inv e E) as I.
  assert (D : IZR (2 ^ (e + 1)) = 2 * IZR (2 ^ e)).
  { rewrite Z.pow_add_r by lia. change (2 ^ 1)%Z with 2%Z. rewrite mult_IZR. ring. }
  assert (Di : / IZR (2 ^ (e + 1)) <= / IZR (2 ^ e)) by (apply Rinv_le_contravar; lra).
  destruct R1 as [A | A]; destruct R2 as [B | B]; rewrite ?Rabs_pos_eq in * by lra.
  - left. lra.
  - right. rewrite Rabs_pos_eq by lra. lra.
  - right. rewrite Rabs_pos_eq by lra. lra.
  - right. rewrite Rabs_pos_eq by lra. lra.
Qed.

Lemma range_sq (e : Z) (v : R) : (0 <= e)%Z -> in_range e v -> in_range (e + e) (v ^ 2).
Proof. intros E H. replace (v ^ 2) with (v * v) by ring. apply range_mul; assumption. Qed.

Lemma Ab_int (n : Z) : (Z.abs n < 2 ^ 53)%Z -> Ab 0 1 (b64_Z n) (IZR n).
Proof.
  intro H. destruct (Fl_int n H) as [F [t [E T]]]. split; [exact F |].
  simpl in T. rewrite Rinv_1 in T. replace t with 1 in E by lra.
  rewrite E, Rmult_1_r. unfold Rminus. rewrite Rplus_opp_r, Rabs_R0. lra.
Qed.

Lemma Ab_third (C V m : R) (x : b64) (v : R) : 0 <= C <= 1000 -> 0 <= V <= 1000 -> 0 <= m ->
  Ab C m x v -> Rabs v <= V * m -> in_range 1000 m -> Ab ((C + V) / 3 + 1) m (b64_div x (b64_Z 3)) (v / 3).
Proof.
  intros HC HV M [Fx Ex] B R1. pose proof eps_range as P.
  destruct (Ab_int 3 ltac:(lia)) as [F3 E3]. rewrite !Rmult_0_l in E3.
  assert (V3 : B2R (b64_Z 3) = 3).
  { destruct (Req_dec (B2R (b64_Z 3) - 3) 0) as [K | K]; [lra | pose proof (Rabs_pos_lt _ K); lra]. }
  apply (Ab_mono (C / 3 + V / 3 + C / 3 * eps + / 100)); [exact M | unfold eps in *; lra |].
  apply (Ab_round _ _ _ (B2R x / B2R (b64_Z 3))); try assumption; try lra.
  - rewrite V3. replace (B2R x / 3 - v / 3) with ((B2R x - v) * / 3) by field.
    rewrite Rabs_mult, (Rabs_pos_eq (/ 3)) by lra. lra.
  - unfold Rdiv. rewrite Rabs_mult, (Rabs_pos_eq (/ 3)) by lra. lra.
  - intro H. apply div_exact; try assumption. rewrite V3. lra.
Qed.

(** a product of relative accuracy times a bracket of size [m] *)
Lemma times (k : nat) (f b : b64) (v w C W m : R) : (k <= 64)%nat -> Fl k f v -> Ab C m b w ->
  0 <= C <= 1000 -> 0 <= W <= 100 -> 0 <= m -> Rabs w <= W * m -> in_range 1000 (v * m) ->
  is_finite (b64_mul f b) = true /\
  Rabs (B2R (b64_mul f b) - v * w) <= (C + W * (INR k + 1) + W + 1) * eps * (Rabs v * m).
Proof.
  intros K F A HC HW M B R1. pose proof (pos_INR k) as Kp. pose proof (le_64 k K) as K64.
  assert (G : Ab (INR k + 1) (Rabs v) f v).
  { pose proof (Ab_of_Fl k 1 (Rabs v) f v K F ltac:(lra)) as Q. rewrite Rmult_1_r in Q. exact Q. }
  assert (R2 : in_range 1000 (Rabs v * m)).
  { destruct R1 as [R1 | R1]; [left | right].
    - rewrite <- (Rabs_pos_eq m M), <- Rabs_mult, R1. apply Rabs_R0.
    - rewrite Rabs_mult, Rabs_Rabsolu, <- Rabs_mult. exact R1. }
  destruct (Ab_mul (INR k + 1) C 1 W (Rabs v) m f b v w ltac:(lra) HC ltac:(lra) HW (Rabs_pos v) M G A
    ltac:(lra) B R2) as [Q1 Q2].
  split; [exact Q1 |]. rewrite Rmult_1_l in Q2. apply Rle_trans with (1 := Q2). right. ring.
Qed.

Lemma Ok_inj {A : Type} (a b : A) : Ok a = Ok b -> a = b.
Proof. intro H. injection H. trivial. Qed.

Section Grav.
Variable L : libm64.
Let NB := Num_B64 L.
Variables x y z : b64.
Hypothesis Fx : is_finite x = true.
Hypothesis Fy : is_finite y = true.
Hypothesis Fz : is_finite z = true.
Hypothesis Rx : in_range 250 (B2R x).
Hypothesis Ry : in_range 250 (B2R y).
Hypothesis Rz : in_range 250 (B2R z).
Let rr := B2R x ^ 2 + B2R y ^ 2 + B2R z ^ 2.
Let r := sqrt rr.
Hypothesis P : 0 < rr.
Let rf : b64 := b64_sqrt (b64_add (b64_add (b64_mul x x) (b64_mul y y)) (b64_mul z z)).

Lemma sq_range (v : R) : in_range 250 v -> in_range 500 (v ^ 2).
Proof using. intro H. exact (range_sq 250 v ltac:(lia) H). Qed.

Lemma rr_range : in_range 502 rr.
Proof using Rx Ry Rz.
  pose proof (pow2_ge_0 (B2R x)). pose proof (pow2_ge_0 (B2R y)). pose proof (pow2_ge_0 (B2R z)).
  apply (range_sum 501); try lia; try lra.
  - apply (range_sum 500); try lia; try lra; apply sq_range; assumption.
  - apply (range_mono 500); [lia |]. apply sq_range; assumption.
Qed.

Lemma r_range : in_range 251 r.
Proof using P Rx Ry Rz. apply range_sqrt; [lia | exact P | exact rr_range]. Qed.

Lemma r_pos : 0 < r.
Proof using P. apply sqrt_lt_R0. exact P. Qed.

Lemma Fl_r : Fl 3 rf r.
Proof using Fx Fy Fz P Rx Ry Rz.
  pose proof (pow2_ge_0 (B2R x)) as X. pose proof (pow2_ge_0 (B2R y)) as Y. pose proof (pow2_ge_0 (B2R z)) as Z.
  apply (Fl_sqrt 2); [lia | exact P | | apply (range_mono 502 1020); [lia | exact rr_range]].
  apply (Fl_mono 3); [lia |].
  apply (Fl_add 2); [lia | lra | exact Z | | |].
  - apply (Fl_add 1); [lia | exact X | exact Y | | |].
    + apply (Fl_sq 0); [lia | apply Fl_exact; exact Fx |].
      apply (range_mono 500 1020); [lia | apply sq_range; exact Rx].
    + apply (Fl_sq 0); [lia | apply Fl_exact; exact Fy |].
      apply (range_mono 500 1020); [lia | apply sq_range; exact Ry].
    + apply (range_mono 501 1020); [lia |]. apply (range_sum 500); try lia; try lra; apply sq_range; assumption.
  - apply (Fl_mono 1); [lia |]. apply (Fl_sq 0); [lia | apply Fl_exact; exact Fz |].
    apply (range_mono 500 1020); [lia | apply sq_range; exact Rz].
  - apply (range_mono 502 1020); [lia | exact rr_range].
Qed.

Lemma Fl_r3 : Fl 11 (b64_mul rf (b64_mul rf rf)) (r ^ 3).
Proof using Fx Fy Fz P Rx Ry Rz.
  apply (Fl_cube 3); [lia | exact Fl_r |].
  apply (range_mono 753 1020); [lia |]. replace (r ^ 3) with (r * r * r) by ring.
  repeat apply (range_mul 502 251) || apply (range_mul 251 251); try lia; exact r_range.
Qed.

Lemma norm_rf (rest : list b64) : @norm_first3 _ NB (x :: y :: z :: rest) = rf.
Proof using. reflexivity. Qed.

(** ** Point mass *)
Variable mu : b64.
Hypothesis Fm : is_finite mu = true.

Lemma pm_component (c : b64) : is_finite c = true ->
  in_range 1020 (B2R mu / r ^ 3) -> in_range 1020 (B2R mu / r ^ 3 * B2R c) ->
  let g := b64_mul (Bopp (b64_div mu (b64_mul rf (b64_mul rf rf)))) c in
  is_finite g = true /\ close (14 * eps) (B2R g) (- (B2R mu / r ^ 3) * B2R c).
Proof using Fm Fx Fy Fz P Rx Ry Rz.
  intros Fc R1 R2 g. replace 14 with (INR 13 + 1) by (rewrite INR_IZR_INZ; simpl; lra).
  apply Fl_close; [lia |].
  apply (Fl_mul 12 0); [lia | | apply Fl_exact; exact Fc |].
  - apply Fl_neg. apply (Fl_div 0 11); [lia | | apply Fl_exact; exact Fm | exact Fl_r3 | exact R1].
    apply pow_nonzero. pose proof r_pos. lra.
  - replace (- (B2R mu / r ^ 3) * B2R c) with (- (B2R mu / r ^ 3 * B2R c)) by ring.
    apply range_opp. exact R2.
Qed.

Lemma pm_close (t : b64) (rest : list b64) (args : list (string * b64)) (g : V3 b64) :
  get "mu"%string args = Some mu ->
  in_range 1020 (B2R mu / r ^ 3) -> in_range 1020 (B2R mu / r ^ 3 * B2R x) ->
  in_range 1020 (B2R mu / r ^ 3 * B2R y) -> in_range 1020 (B2R mu / r ^ 3 * B2R z) ->
  @point_mass_grav _ NB t (x :: y :: z :: rest) args = Ok g ->
  (is_finite (c0 g) = true /\ close (14 * eps) (B2R (c0 g)) (- (B2R mu / r ^ 3) * B2R x)) /\
  (is_finite (c1 g) = true /\ close (14 * eps) (B2R (c1 g)) (- (B2R mu / r ^ 3) * B2R y)) /\
  (is_finite (c2 g) = true /\ close (14 * eps) (B2R (c2 g)) (- (B2R mu / r ^ 3) * B2R z)).
Proof using Fm Fx Fy Fz P Rx Ry Rz.
  intros G R0 R1 R2 R3 H. unfold point_mass_grav in H. rewrite lookup_get, G in H.
  rewrite norm_rf in H. cbn [bind jget Nat.min nth_error length Nat.sub] in H.
  apply Ok_inj in H. rewrite <- H. clear H. cbn [c0 c1 c2].
  split; [| split]; apply pm_component; assumption.
Qed.

(** ** Zonal harmonics *)
Let q := B2R z / r.
Let qf : b64 := b64_div z rf.

Lemma z_le_r : Rabs (B2R z) <= r.
Proof using P.
  unfold r. rewrite <- sqrt_Rsqr_abs. apply sqrt_le_1_alt. unfold rr, Rsqr.
  pose proof (pow2_ge_0 (B2R x)). pose proof (pow2_ge_0 (B2R y)). nra.
Qed.

Lemma q_small : Rabs q <= 1.
Proof using P.
  pose proof r_pos as Q. pose proof z_le_r as H. unfold q, Rdiv.
  rewrite Rabs_mult, Rabs_inv, (Rabs_pos_eq r) by lra.
  apply Rmult_le_reg_r with r; [exact Q |]. rewrite Rmult_assoc, Rinv_l, Rmult_1_r by lra. lra.
Qed.

Lemma range_1 : in_range 1000 1.
Proof using. apply range_between; [| lia]. pose proof (two_pow_inv 1000 ltac:(lia)). pose proof (two_pow 1000 ltac:(lia)). lra. Qed.

Lemma Ab_q : Ab 5 1 qf q.
Proof using Fx Fy Fz P Rx Ry Rz.
  pose proof (Ab_of_Fl 4 1 1 qf q ltac:(lia)) as H. replace ((INR 4 + 1) * 1) with 5 in H by (rewrite INR_IZR_INZ; simpl; lra).
  apply H; [| pose proof q_small; lra].
  apply (Fl_div 0 3); [lia | pose proof r_pos; lra | apply Fl_exact; exact Fz | exact Fl_r |].
  apply (range_mono 501 1020); [lia |]. apply (range_div 250 251); [lia | lia | exact Rz | exact r_range].
Qed.

Lemma s_small : 0 <= q ^ 2 <= 1.
Proof using P.
  pose proof q_small as H. split; [apply pow2_ge_0 |]. rewrite <- pow2_abs.
  pose proof (Rabs_pos q). nra.
Qed.

Let sf : b64 := b64_mul qf qf.

Lemma Ab_s : Ab 12 1 sf (q ^ 2).
Proof using Fx Fy Fz P Rx Ry Rz.
  pose proof q_small as H.
  pose proof (Ab_mul 5 5 1 1 1 1 qf qf q q ltac:(lra) ltac:(lra) ltac:(lra) ltac:(lra) ltac:(lra) ltac:(lra)
    Ab_q Ab_q ltac:(lra) ltac:(lra)) as A.
  rewrite Rmult_1_l in A. specialize (A range_1).
  replace (q * q) with (q ^ 2) in A by ring. apply (Ab_mono (1 * 5 + 1 * 5 + 1 + 1)); [lra | lra |].
  rewrite ?Rmult_1_l in *. exact A.
Qed.

(** an integer times a bracket of size 1 *)
Lemma Ab_times (n : Z) (C V : R) (b : b64) (w : R) : (0 <= n <= 100)%Z -> 0 <= C <= 1000 -> 0 <= V <= 100 ->
  Ab C 1 b w -> Rabs w <= V -> Ab (IZR n * C + IZR n * V + 1) 1 (b64_mul (b64_Z n) b) (IZR n * w).
Proof using.
  intros Hn HC HV A B. assert (N : 0 <= IZR n <= 100) by (split; apply IZR_le; lia).
  pose proof (Ab_mul 0 C (IZR n) V 1 1 (b64_Z n) b (IZR n) w ltac:(lra) HC N HV ltac:(lra) ltac:(lra)
    (Ab_int n ltac:(lia)) A ltac:(rewrite Rabs_pos_eq; lra) ltac:(lra)) as Q.
  rewrite Rmult_1_l in Q. specialize (Q range_1).
  apply (Ab_mono (IZR n * C + V * 0 + IZR n * V + 1)); [lra | lra |]. exact Q.
Qed.

Lemma Ab_j2 : Ab 71 1 (b64_sub (b64_Z 1) (b64_mul (b64_Z 5) sf)) (1 - 5 * q ^ 2) /\
  Ab 70 1 (b64_sub (b64_Z 3) (b64_mul (b64_Z 5) sf)) (3 - 5 * q ^ 2).
Proof using Fx Fy Fz P Rx Ry Rz.
  pose proof s_small as S.
  pose proof (Ab_times 5 12 1 sf (q ^ 2) ltac:(lia) ltac:(lra) ltac:(lra) Ab_s ltac:(rewrite Rabs_pos_eq; lra)) as A.
  apply (Ab_mono _ 66) in A; [| lra | lra]. split.
  - apply (Ab_mono (0 + 66 + 4 + 1)); [lra | lra |].
    apply Ab_sub; try lra; [apply Ab_int; lia | exact A | apply Rabs_le; lra | exact range_1].
  - apply (Ab_mono (0 + 66 + 3 + 1)); [lra | lra |].
    apply Ab_sub; try lra; [apply Ab_int; lia | exact A | apply Rabs_le; lra | exact range_1].
Qed.

Variables J Re : b64.
Hypothesis FJ : is_finite J = true.
Hypothesis FR : is_finite Re = true.

Lemma Fl_r2 : Fl 7 (b64_mul rf rf) (r ^ 2).
Proof using Fx Fy Fz P Rx Ry Rz.
  apply (Fl_sq 3); [lia | exact Fl_r |]. apply (range_mono 502 1020); [lia |].
  exact (range_sq 251 r ltac:(lia) r_range).
Qed.

Lemma Fl_r4 : in_range 1020 (r ^ 4) -> Fl 15 (b64_mul (b64_mul rf rf) (b64_mul rf rf)) (r ^ 4).
Proof using Fx Fy Fz P Rx Ry Rz.
  intro H. replace (r ^ 4) with ((r ^ 2) ^ 2) in * by ring. apply (Fl_sq 7); [lia | exact Fl_r2 | exact H].
Qed.

Lemma Fl_r5 : in_range 1020 (r ^ 5) ->
  Fl 19 (b64_mul rf (b64_mul (b64_mul rf rf) (b64_mul rf rf))) (r ^ 5).
Proof using Fx Fy Fz P Rx Ry Rz.
  intro H. assert (H4 : in_range 1020 (r ^ 4)) by (apply (range_pow 1020 4 5); [lia | lia | exact H]).
  replace (r ^ 5) with (r * r ^ 4) in * by ring.
  apply (Fl_mul 3 15); [lia | exact Fl_r | exact (Fl_r4 H4) | exact H].
Qed.

Lemma Fl_r7 : in_range 1020 (r ^ 7) ->
  Fl 27 (b64_mul (b64_mul rf (b64_mul rf rf)) (b64_mul (b64_mul rf rf) (b64_mul rf rf))) (r ^ 7).
Proof using Fx Fy Fz P Rx Ry Rz.
  intro H. assert (H4 : in_range 1020 (r ^ 4)) by (apply (range_pow 1020 4 7); [lia | lia | exact H]).
  replace (r ^ 7) with (r ^ 3 * r ^ 4) in * by ring.
  apply (Fl_mul 11 15); [lia | exact Fl_r3 | exact (Fl_r4 H4) | exact H].
Qed.

(** numerator of the factors: literal times mu times J times a power of R_eq *)
Lemma Fl_numerator (p : Z) (d : positive) (k : nat) (pw : b64) (v : R) :
  (Z.abs p < 2 ^ 53)%Z -> (Z.pos d < 2 ^ 53)%Z -> (p <> 0)%Z -> (k <= 20)%nat -> Fl k pw v ->
  let c := IZR p / IZR (Z.pos d) in
  in_range 1020 (c * B2R mu) -> in_range 1020 (c * B2R mu * B2R J) -> in_range 1020 (c * B2R mu * B2R J * v) ->
  Fl (k + 4) (b64_mul (b64_mul (b64_mul (b64_dec p d) mu) J) pw) (c * B2R mu * B2R J * v).
Proof using FJ Fm.
  intros H1 H2 H3 K F c R1 R2 R3. replace (k + 4)%nat with (S (3 + k)) by lia.
  apply Fl_mul; [lia | | exact F | exact R3].
  apply (Fl_mul 2 0); [lia | | apply Fl_exact; exact FJ | exact R2].
  apply (Fl_mul 1 0); [lia | apply Fl_dec; assumption | apply Fl_exact; exact Fm | exact R1].
Qed.

Definition good (C m : R) (g : b64) (v : R) : Prop := is_finite g = true /\ Rabs (B2R g - v) <= C * eps * m.

(** ** J2 *)
Let F2 := -3 / 2 * B2R mu * B2R J * B2R Re ^ 2 / r ^ 5.
Let f2 : b64 := b64_div (b64_mul (b64_mul (b64_mul (b64_dec (-3) 2) mu) J) (b64_mul Re Re))
  (b64_mul rf (b64_mul (b64_mul rf rf) (b64_mul rf rf))).

Lemma Fl_f2 :
  Forall (in_range 1020) [-3 / 2 * B2R mu; -3 / 2 * B2R mu * B2R J; B2R Re ^ 2;
    -3 / 2 * B2R mu * B2R J * B2R Re ^ 2; r ^ 5; F2] -> Fl 25 f2 F2.
Proof using FJ FR Fm Fx Fy Fz P Rx Ry Rz.
  intro H. inversion_clear H as [| ? ? H1 T]. inversion_clear T as [| ? ? H2 U]. inversion_clear U as [| ? ? H3 T].
  inversion_clear T as [| ? ? H4 U]. inversion_clear U as [| ? ? H5 T]. inversion_clear T as [| ? ? H6 U].
  apply (Fl_div 5 19); [lia | apply pow_nonzero; pose proof r_pos; lra | | exact (Fl_r5 H5) | exact H6].
  apply (Fl_numerator (-3) 2 1); try lia; try assumption.
  apply (Fl_sq 0); [lia | apply Fl_exact; exact FR | exact H3].
Qed.

Lemma j2_x (c : b64) : is_finite c = true -> Fl 25 f2 F2 -> in_range 1000 (F2 * B2R c) ->
  good 184 (Rabs (F2 * B2R c)) (b64_mul (b64_mul f2 c) (b64_sub (b64_Z 1) (b64_mul (b64_Z 5) sf)))
    (F2 * B2R c * (1 - 5 * q ^ 2)) /\
  good 155 (Rabs (F2 * B2R c)) (b64_mul (b64_mul f2 c) (b64_sub (b64_Z 3) (b64_mul (b64_Z 5) sf)))
    (F2 * B2R c * (3 - 5 * q ^ 2)).
Proof using FJ FR Fm Fx Fy Fz P Rx Ry Rz.
  intros Fc F R1. pose proof s_small as S. destruct Ab_j2 as [A1 A3].
  assert (Fl26 : Fl 26 (b64_mul f2 c) (F2 * B2R c)).
  { apply (Fl_mul 25 0); [lia | exact F | apply Fl_exact; exact Fc |].
    apply (range_mono 1000 1020); [lia | exact R1]. }
  split.
  - destruct (times 26 _ _ _ _ 71 4 1 ltac:(lia) Fl26 A1 ltac:(lra) ltac:(lra) ltac:(lra)
      ltac:(apply Rabs_le; lra) ltac:(rewrite Rmult_1_r; exact R1)) as [G1 G2].
    split; [exact G1 |]. apply Rle_trans with (1 := G2). right. rewrite INR_IZR_INZ. simpl. ring.
  - destruct (times 26 _ _ _ _ 70 3 1 ltac:(lia) Fl26 A3 ltac:(lra) ltac:(lra) ltac:(lra)
      ltac:(apply Rabs_le; lra) ltac:(rewrite Rmult_1_r; exact R1)) as [G1 G2].
    split; [exact G1 |]. apply Rle_trans with (1 := G2). right. rewrite INR_IZR_INZ. simpl. ring.
Qed.

Lemma j2_close (t : b64) (rest : list b64) (args : list (string * b64)) (g : V3 b64) :
  get "mu"%string args = Some mu -> get "J2"%string args = Some J -> get "R_eq"%string args = Some Re ->
  Forall (in_range 1020) [-3 / 2 * B2R mu; -3 / 2 * B2R mu * B2R J; B2R Re ^ 2;
    -3 / 2 * B2R mu * B2R J * B2R Re ^ 2; r ^ 5; F2] ->
  Forall (in_range 1000) [F2 * B2R x; F2 * B2R y; F2 * B2R z] ->
  @j2_acc _ NB t (x :: y :: z :: rest) args = Ok g ->
  good 184 (Rabs (F2 * B2R x)) (c0 g) (F2 * B2R x * (1 - 5 * (B2R z / r) ^ 2)) /\
  good 184 (Rabs (F2 * B2R y)) (c1 g) (F2 * B2R y * (1 - 5 * (B2R z / r) ^ 2)) /\
  good 155 (Rabs (F2 * B2R z)) (c2 g) (F2 * B2R z * (3 - 5 * (B2R z / r) ^ 2)).
Proof using FJ FR Fm Fx Fy Fz P Rx Ry Rz.
  intros G1 G2 G3 R1 R2 H. apply Fl_f2 in R1.
  inversion_clear R2 as [| ? ? H1 T]. inversion_clear T as [| ? ? H2 U]. inversion_clear U as [| ? ? H3 T].
  unfold j2_acc in H. rewrite !lookup_get, G1, G2, G3, norm_rf in H.
  cbn [bind jget Nat.min nth_error length Nat.sub] in H. apply Ok_inj in H. rewrite <- H. clear H. cbn [c0 c1 c2].
  split; [| split].
  - exact (proj1 (j2_x x Fx R1 H1)).
  - exact (proj1 (j2_x y Fy R1 H2)).
  - exact (proj2 (j2_x z Fz R1 H3)).
Qed.

(** ** J3 *)
Let w := B2R z ^ 3 / r ^ 2.
Let wf : b64 := b64_div (b64_mul z (b64_mul z z)) (b64_mul rf rf).

Lemma w_small : Rabs w <= r.
Proof using P.
  pose proof z_le_r as H. pose proof r_pos as Q. pose proof (Rabs_pos (B2R z)) as Z0.
  unfold w, Rdiv. rewrite Rabs_mult, Rabs_inv, <- !RPow_abs, (Rabs_pos_eq r) by lra.
  assert (R2 : 0 < r ^ 2) by (apply pow_lt; exact Q).
  apply Rmult_le_reg_r with (r ^ 2); [exact R2 |]. rewrite Rmult_assoc, Rinv_l, Rmult_1_r by lra.
  replace (r * r ^ 2) with (r ^ 3) by ring. apply pow_incr. lra.
Qed.

Lemma Fl_w : in_range 1020 (B2R z ^ 3) -> in_range 1020 w -> Fl 10 wf w.
Proof using Fx Fy Fz P Rx Ry Rz.
  intros R1 R2. apply (Fl_div 2 7); [lia | apply pow_nonzero; pose proof r_pos; lra | | exact Fl_r2 | exact R2].
  apply (Fl_cube 0); [lia | apply Fl_exact; exact Fz | exact R1].
Qed.

Lemma r_range109 : in_range 1000 r.
Proof using P Rx Ry Rz. apply (range_mono 251 1000); [lia | exact r_range]. Qed.

Lemma Ab_j3x : in_range 1020 (B2R z ^ 3) -> in_range 1020 w -> in_range 1017 w ->
  Ab 101 r (b64_sub (b64_mul (b64_Z 3) z) (b64_mul (b64_Z 7) wf)) (3 * B2R z - 7 * w).
Proof using Fx Fy Fz P Rx Ry Rz.
  intros R1 R2 R3. pose proof z_le_r as Hz. pose proof w_small as Hw. pose proof r_pos as Q.
  assert (A : Ab 6 r (b64_mul (b64_Z 3) z) (3 * B2R z)).
  { pose proof (Ab_of_Fl 1 3 r (b64_mul (b64_Z 3) z) (3 * B2R z) ltac:(lia)) as H.
    replace ((INR 1 + 1) * 3) with 6 in H by (rewrite INR_IZR_INZ; simpl; lra). apply H.
    - apply (Fl_mul 0 0); [lia | apply Fl_int; lia | apply Fl_exact; exact Fz |].
      apply (range_mono 252 1020); [lia |]. apply (range_mul 2 250); [lia | lia | | exact Rz].
      apply range_between; [simpl; lra | lia].
    - rewrite Rabs_mult, (Rabs_pos_eq 3) by lra. lra. }
  assert (B : Ab 84 r (b64_mul (b64_Z 7) wf) (7 * w)).
  { pose proof (Ab_of_Fl 11 7 r (b64_mul (b64_Z 7) wf) (7 * w) ltac:(lia)) as H.
    replace ((INR 11 + 1) * 7) with 84 in H by (rewrite INR_IZR_INZ; simpl; lra). apply H.
    - apply (Fl_mul 0 10); [lia | apply Fl_int; lia | exact (Fl_w R1 R2) |].
      apply (range_mul 3 1017); [lia | lia | | exact R3]. apply range_between; [simpl; lra | lia].
    - rewrite Rabs_mult, (Rabs_pos_eq 7) by lra. lra. }
  apply (Ab_mono (6 + 84 + 10 + 1)); [lra | lra |].
  apply Ab_sub; try lra; [exact A | exact B | | exact r_range109].
  apply Rabs_le_inv in Hz. apply Rabs_le_inv in Hw. apply Rabs_le. lra.
Qed.

Lemma Ab_j3z : in_range 1020 (B2R z ^ 3) -> in_range 1020 w -> in_range 1017 w -> in_range 1020 (7 * w * B2R z) ->
  Ab 144 (r ^ 2) (b64_sub (b64_sub (b64_mul (b64_Z 6) (b64_mul z z)) (b64_mul (b64_mul (b64_Z 7) wf) z))
    (b64_mul (b64_dec 3 5) (b64_mul rf rf))) (6 * B2R z ^ 2 - 7 * w * B2R z - 3 / 5 * r ^ 2).
Proof using Fx Fy Fz P Rx Ry Rz.
  intros R1 R2 R3 R4. pose proof z_le_r as Hz. pose proof w_small as Hw. pose proof r_pos as Q.
  assert (Q2 : 0 < r ^ 2) by (apply pow_lt; exact Q).
  assert (Rr2 : in_range 502 (r ^ 2)) by exact (range_sq 251 r ltac:(lia) r_range).
  assert (Rr : in_range 1000 (r ^ 2)) by (apply (range_mono 502 1000); [lia | exact Rr2]).
  assert (Hz2 : Rabs (B2R z ^ 2) <= r ^ 2) by (rewrite <- RPow_abs; apply pow_incr; split; [apply Rabs_pos | exact Hz]).
  assert (Hwz : Rabs (w * B2R z) <= r ^ 2).
  { rewrite Rabs_mult. replace (r ^ 2) with (r * r) by ring. apply Rmult_le_compat; try apply Rabs_pos; assumption. }
  assert (A : Ab 18 (r ^ 2) (b64_mul (b64_Z 6) (b64_mul z z)) (6 * B2R z ^ 2)).
  { pose proof (Ab_of_Fl 2 6 (r ^ 2) (b64_mul (b64_Z 6) (b64_mul z z)) (6 * B2R z ^ 2) ltac:(lia)) as H.
    replace ((INR 2 + 1) * 6) with 18 in H by (rewrite INR_IZR_INZ; simpl; lra). apply H.
    - apply (Fl_mul 0 1); [lia | apply Fl_int; lia | |].
      + apply (Fl_sq 0); [lia | apply Fl_exact; exact Fz |]. apply (range_mono 500 1020); [lia | exact (sq_range _ Rz)].
      + apply (range_mono 503 1020); [lia |]. apply (range_mul 3 500); [lia | lia | | exact (sq_range _ Rz)].
        apply range_between; [simpl; lra | lia].
    - rewrite Rabs_mult, (Rabs_pos_eq 6) by lra. lra. }
  assert (B : Ab 91 (r ^ 2) (b64_mul (b64_mul (b64_Z 7) wf) z) (7 * w * B2R z)).
  { pose proof (Ab_of_Fl 12 7 (r ^ 2) (b64_mul (b64_mul (b64_Z 7) wf) z) (7 * w * B2R z) ltac:(lia)) as H.
    replace ((INR 12 + 1) * 7) with 91 in H by (rewrite INR_IZR_INZ; simpl; lra). apply H.
    - apply (Fl_mul 11 0); [lia | | apply Fl_exact; exact Fz | exact R4].
      apply (Fl_mul 0 10); [lia | apply Fl_int; lia | exact (Fl_w R1 R2) |].
      apply (range_mul 3 1017); [lia | lia | | exact R3]. apply range_between; [simpl; lra | lia].
    - rewrite Rmult_assoc, Rabs_mult, (Rabs_pos_eq 7) by lra. lra. }
  assert (D : Ab 6 (r ^ 2) (b64_mul (b64_dec 3 5) (b64_mul rf rf)) (3 / 5 * r ^ 2)).
  { pose proof (Ab_of_Fl 9 (3 / 5) (r ^ 2) (b64_mul (b64_dec 3 5) (b64_mul rf rf)) (3 / 5 * r ^ 2) ltac:(lia)) as H.
    replace ((INR 9 + 1) * (3 / 5)) with 6 in H by (rewrite INR_IZR_INZ; simpl; lra). apply H.
    - apply (Fl_mul 1 7); [lia | apply (Fl_dec 3 5); lia | exact Fl_r2 |].
      apply (range_mono 503 1020); [lia |]. apply (range_mul 1 502); [lia | lia | | exact Rr2].
      apply range_between; [simpl; lra | lia].
    - rewrite Rabs_mult, (Rabs_pos_eq (3 / 5)), (Rabs_pos_eq (r ^ 2)) by lra. lra. }
  apply Rabs_le_inv in Hz2. apply Rabs_le_inv in Hwz.
  apply (Ab_mono (123 + 6 + 14 + 1)); [lra | lra |].
  apply Ab_sub; try lra; [| exact D | | exact Rr].
  - apply (Ab_mono (18 + 91 + 13 + 1)); [lra | lra |].
    apply Ab_sub; try lra; [exact A | exact B | | exact Rr].
    rewrite Rmult_assoc. apply Rabs_le. lra.
  - rewrite Rmult_assoc. apply Rabs_le. lra.
Qed.

Let F3 := -5 / 2 * B2R mu * B2R J * B2R Re ^ 3 / r ^ 7.
Let r7f : b64 := b64_mul (b64_mul rf (b64_mul rf rf)) (b64_mul (b64_mul rf rf) (b64_mul rf rf)).
Let f3 : b64 := b64_div (b64_mul (b64_mul (b64_mul (b64_dec (-5) 2) mu) J) (b64_mul Re (b64_mul Re Re))) r7f.

Lemma Fl_f3 :
  Forall (in_range 1020) [-5 / 2 * B2R mu; -5 / 2 * B2R mu * B2R J; B2R Re ^ 3;
    -5 / 2 * B2R mu * B2R J * B2R Re ^ 3; r ^ 7; F3] -> Fl 34 f3 F3.
Proof using FJ FR Fm Fx Fy Fz P Rx Ry Rz.
  intro H. inversion_clear H as [| ? ? H1 T]. inversion_clear T as [| ? ? H2 U]. inversion_clear U as [| ? ? H3 T].
  inversion_clear T as [| ? ? H4 U]. inversion_clear U as [| ? ? H5 T]. inversion_clear T as [| ? ? H6 U].
  apply (Fl_div 6 27); [lia | apply pow_nonzero; pose proof r_pos; lra | | exact (Fl_r7 H5) | exact H6].
  apply (Fl_numerator (-5) 2 2); try lia; try assumption.
  apply (Fl_cube 0); [lia | apply Fl_exact; exact FR | exact H3].
Qed.

Lemma j3_x (c : b64) : is_finite c = true -> Fl 34 f3 F3 ->
  in_range 1020 (B2R z ^ 3) -> in_range 1017 w -> in_range 1000 (F3 * B2R c) -> in_range 1000 (F3 * B2R c * r) ->
  good 472 (Rabs (F3 * B2R c) * r) (b64_mul (b64_mul f3 c) (b64_sub (b64_mul (b64_Z 3) z) (b64_mul (b64_Z 7) wf)))
    (F3 * B2R c * (3 * B2R z - 7 * w)).
Proof using FJ FR Fm Fx Fy Fz P Rx Ry Rz.
  intros Fc F R1 R2 R3 R4. pose proof r_pos as Q. pose proof z_le_r as Hz. pose proof w_small as Hw.
  assert (R2' : in_range 1020 w) by (apply (range_mono 1017 1020); [lia | exact R2]).
  assert (Fl35 : Fl 35 (b64_mul f3 c) (F3 * B2R c)).
  { apply (Fl_mul 34 0); [lia | exact F | apply Fl_exact; exact Fc |].
    apply (range_mono 1000 1020); [lia | exact R3]. }
  destruct (times 35 _ _ _ _ 101 10 r ltac:(lia) Fl35 (Ab_j3x R1 R2' R2) ltac:(lra) ltac:(lra) ltac:(lra)
    ltac:(apply Rabs_le_inv in Hz; apply Rabs_le_inv in Hw; apply Rabs_le; lra) R4) as [G1 G2].
  split; [exact G1 |]. apply Rle_trans with (1 := G2). right. rewrite INR_IZR_INZ. simpl. ring.
Qed.

Lemma j3_close (t : b64) (rest : list b64) (args : list (string * b64)) (g : V3 b64) :
  get "mu"%string args = Some mu -> get "J3"%string args = Some J -> get "R_eq"%string args = Some Re ->
  Forall (in_range 1020) [-5 / 2 * B2R mu; -5 / 2 * B2R mu * B2R J; B2R Re ^ 3;
    -5 / 2 * B2R mu * B2R J * B2R Re ^ 3; r ^ 7; F3] ->
  Forall (in_range 1017) [B2R z ^ 3; B2R z ^ 3 / r ^ 2; 7 * (B2R z ^ 3 / r ^ 2) * B2R z] ->
  Forall (in_range 1000) [F3 * B2R x; F3 * B2R y; F3 * B2R x * r; F3 * B2R y * r; F3 * r ^ 2] ->
  @j3_acc _ NB t (x :: y :: z :: rest) args = Ok g ->
  good 472 (Rabs (F3 * B2R x) * r) (c0 g) (F3 * B2R x * (3 * B2R z - 7 * (B2R z ^ 3 / r ^ 2))) /\
  good 472 (Rabs (F3 * B2R y) * r) (c1 g) (F3 * B2R y * (3 * B2R z - 7 * (B2R z ^ 3 / r ^ 2))) /\
  good 649 (Rabs F3 * r ^ 2) (c2 g)
    (F3 * (6 * B2R z ^ 2 - 7 * (B2R z ^ 3 / r ^ 2) * B2R z - 3 / 5 * r ^ 2)).
Proof using FJ FR Fm Fx Fy Fz P Rx Ry Rz.
  intros G1 G2 G3 R1 R2 R3 H. apply Fl_f3 in R1. pose proof r_pos as Q.
  inversion_clear R2 as [| ? ? K1 T]. inversion_clear T as [| ? ? K2 U]. inversion_clear U as [| ? ? K3 T].
  assert (K1' : in_range 1020 (B2R z ^ 3)) by (apply (range_mono 1017 1020); [lia | exact K1]).
  assert (K2' : in_range 1020 w) by (apply (range_mono 1017 1020); [lia | exact K2]).
  assert (K3' : in_range 1020 (7 * w * B2R z)) by (apply (range_mono 1017 1020); [lia | exact K3]).
  inversion_clear R3 as [| ? ? H1 U]. inversion_clear U as [| ? ? H2 V]. inversion_clear V as [| ? ? H3 U].
  inversion_clear U as [| ? ? H4 V]. inversion_clear V as [| ? ? H5 U].
  unfold j3_acc in H. rewrite !lookup_get, G1, G2, G3, norm_rf in H.
  cbn [bind jget Nat.min nth_error length Nat.sub] in H. apply Ok_inj in H. rewrite <- H. clear H. cbn [c0 c1 c2].
  split; [| split].
  - exact (j3_x x Fx R1 K1' K2 H1 H3).
  - exact (j3_x y Fy R1 K1' K2 H2 H4).
  - assert (Q2 : 0 < r ^ 2) by (apply pow_lt; exact Q).
    assert (B : Rabs (6 * B2R z ^ 2 - 7 * w * B2R z - 3 / 5 * r ^ 2) <= 14 * r ^ 2).
    { pose proof z_le_r as Hz. pose proof w_small as Hw.
      assert (Hz2 : Rabs (B2R z ^ 2) <= r ^ 2) by (rewrite <- RPow_abs; apply pow_incr; split; [apply Rabs_pos | exact Hz]).
      assert (Hwz : Rabs (w * B2R z) <= r ^ 2).
      { rewrite Rabs_mult. replace (r ^ 2) with (r * r) by ring. apply Rmult_le_compat; try apply Rabs_pos; assumption. }
      apply Rabs_le_inv in Hz2. apply Rabs_le_inv in Hwz. rewrite Rmult_assoc. apply Rabs_le. lra. }
    destruct (times 34 _ _ _ _ 144 14 (r ^ 2) ltac:(lia) R1 (Ab_j3z K1' K2' K2 K3') ltac:(lra) ltac:(lra)
      ltac:(lra) B H5) as [E1 E2].
    split; [exact E1 |]. apply Rle_trans with (1 := E2). right. rewrite INR_IZR_INZ. simpl. ring.
Qed.

(** ** J4 *)
Lemma Ab_j4 :
  Ab 774 1 (b64_add (b64_sub (b64_Z 1) (b64_mul (b64_Z 14) sf)) (b64_mul (b64_Z 21) (b64_mul sf sf)))
    (1 - 14 * q ^ 2 + 21 * q ^ 4) /\
  Ab 922 1 (b64_add (b64_sub (b64_Z 5) (b64_div (b64_mul (b64_Z 70) sf) (b64_Z 3))) (b64_mul (b64_Z 21) (b64_mul sf sf)))
    (5 - 70 * q ^ 2 / 3 + 21 * q ^ 4).
Proof using Fx Fy Fz P Rx Ry Rz.
  pose proof s_small as S. set (s := q ^ 2) in *.
  replace (q ^ 4) with (s * s) by (unfold s; ring).
  assert (SS : 0 <= s * s <= 1) by nra.
  assert (A2 : Ab 26 1 (b64_mul sf sf) (s * s)).
  { pose proof (Ab_mul 12 12 1 1 1 1 sf sf s s ltac:(lra) ltac:(lra) ltac:(lra) ltac:(lra) ltac:(lra) ltac:(lra)
      Ab_s Ab_s ltac:(rewrite Rabs_pos_eq; lra) ltac:(rewrite Rabs_pos_eq; lra)) as A.
    rewrite Rmult_1_l in A. specialize (A range_1). rewrite !Rmult_1_l in A.
    apply (Ab_mono (12 + 12 + 1 + 1)); [lra | lra | exact A]. }
  pose proof (Ab_times 14 12 1 sf s ltac:(lia) ltac:(lra) ltac:(lra) Ab_s ltac:(rewrite Rabs_pos_eq; lra)) as A14.
  pose proof (Ab_times 70 12 1 sf s ltac:(lia) ltac:(lra) ltac:(lra) Ab_s ltac:(rewrite Rabs_pos_eq; lra)) as A70.
  pose proof (Ab_times 21 26 1 (b64_mul sf sf) (s * s) ltac:(lia) ltac:(lra) ltac:(lra) A2 ltac:(rewrite Rabs_pos_eq; lra)) as A21.
  apply (Ab_mono _ 183) in A14; [| lra | lra]. apply (Ab_mono _ 911) in A70; [| lra | lra].
  apply (Ab_mono _ 568) in A21; [| lra | lra].
  split.
  - apply (Ab_mono (197 + 568 + 8 + 1)); [lra | lra |].
    apply Ab_add; try lra; [| exact A21 | apply Rabs_le; nra | exact range_1].
    apply (Ab_mono (0 + 183 + 13 + 1)); [lra | lra |].
    apply Ab_sub; try lra; [apply Ab_int; lia | exact A14 | apply Rabs_le; lra | exact range_1].
  - assert (A3 : Ab 328 1 (b64_div (b64_mul (b64_Z 70) sf) (b64_Z 3)) (70 * s / 3)).
    { apply (Ab_mono ((911 + 70) / 3 + 1)); [lra | lra |].
      apply Ab_third; try lra; [exact A70 | rewrite Rabs_pos_eq; lra | exact range_1]. }
    apply (Ab_mono (348 + 568 + 5 + 1)); [lra | lra |].
    apply Ab_add; try lra; [| exact A21 | apply Rabs_le; nra | exact range_1].
    apply (Ab_mono (0 + 328 + 19 + 1)); [lra | lra |].
    apply Ab_sub; try lra; [apply Ab_int; lia | exact A3 | apply Rabs_le; lra | exact range_1].
Qed.

Let F4 := 15 / 8 * B2R mu * B2R J * B2R Re ^ 4 / r ^ 7.
Let f4 : b64 := b64_div (b64_mul (b64_mul (b64_mul (b64_dec 15 8) mu) J) (b64_mul (b64_mul Re Re) (b64_mul Re Re))) r7f.

Lemma Fl_f4 :
  Forall (in_range 1020) [15 / 8 * B2R mu; 15 / 8 * B2R mu * B2R J; B2R Re ^ 4;
    15 / 8 * B2R mu * B2R J * B2R Re ^ 4; r ^ 7; F4] -> Fl 35 f4 F4.
Proof using FJ FR Fm Fx Fy Fz P Rx Ry Rz.
  intro H. inversion_clear H as [| ? ? H1 T]. inversion_clear T as [| ? ? H2 U]. inversion_clear U as [| ? ? H3 T].
  inversion_clear T as [| ? ? H4 U]. inversion_clear U as [| ? ? H5 T]. inversion_clear T as [| ? ? H6 U].
  apply (Fl_div 7 27); [lia | apply pow_nonzero; pose proof r_pos; lra | | exact (Fl_r7 H5) | exact H6].
  apply (Fl_numerator 15 8 3); try lia; try assumption.
  assert (H3' : in_range 1020 (B2R Re ^ 2)) by (apply (range_pow 1020 2 4); [lia | lia | exact H3]).
  replace (B2R Re ^ 4) with ((B2R Re ^ 2) ^ 2) in * by ring.
  apply (Fl_sq 1); [lia | | replace ((B2R Re ^ 2) ^ 2) with (B2R Re * (B2R Re * (B2R Re * (B2R Re * 1)))) by ring; exact H3].
  apply (Fl_sq 0); [lia | apply Fl_exact; exact FR | exact H3'].
Qed.

Lemma j4_x (c : b64) : is_finite c = true -> Fl 35 f4 F4 -> in_range 1000 (F4 * B2R c) ->
  good 1079 (Rabs (F4 * B2R c)) (b64_mul (b64_mul f4 c)
    (b64_add (b64_sub (b64_Z 1) (b64_mul (b64_Z 14) sf)) (b64_mul (b64_Z 21) (b64_mul sf sf))))
    (F4 * B2R c * (1 - 14 * q ^ 2 + 21 * q ^ 4)) /\
  good 1113 (Rabs (F4 * B2R c)) (b64_mul (b64_mul f4 c)
    (b64_add (b64_sub (b64_Z 5) (b64_div (b64_mul (b64_Z 70) sf) (b64_Z 3))) (b64_mul (b64_Z 21) (b64_mul sf sf))))
    (F4 * B2R c * (5 - 70 * q ^ 2 / 3 + 21 * q ^ 4)).
Proof using FJ FR Fm Fx Fy Fz P Rx Ry Rz.
  intros Fc F R1. pose proof s_small as S. destruct Ab_j4 as [A1 A3].
  assert (S4 : q ^ 4 = q ^ 2 * q ^ 2) by ring.
  assert (Fl36 : Fl 36 (b64_mul f4 c) (F4 * B2R c)).
  { apply (Fl_mul 35 0); [lia | exact F | apply Fl_exact; exact Fc |].
    apply (range_mono 1000 1020); [lia | exact R1]. }
  split.
  - destruct (times 36 _ _ _ _ 774 8 1 ltac:(lia) Fl36 A1 ltac:(lra) ltac:(lra) ltac:(lra)
      ltac:(rewrite S4; apply Rabs_le; nra) ltac:(rewrite Rmult_1_r; exact R1)) as [G1 G2].
    split; [exact G1 |]. apply Rle_trans with (1 := G2). right. rewrite INR_IZR_INZ. simpl. ring.
  - destruct (times 36 _ _ _ _ 922 5 1 ltac:(lia) Fl36 A3 ltac:(lra) ltac:(lra) ltac:(lra)
      ltac:(rewrite S4; apply Rabs_le; nra) ltac:(rewrite Rmult_1_r; exact R1)) as [G1 G2].
    split; [exact G1 |]. apply Rle_trans with (1 := G2). right. rewrite INR_IZR_INZ. simpl. ring.
Qed.

Lemma j4_close (t : b64) (rest : list b64) (args : list (string * b64)) (g : V3 b64) :
  get "mu"%string args = Some mu -> get "J4"%string args = Some J -> get "R_eq"%string args = Some Re ->
  Forall (in_range 1020) [15 / 8 * B2R mu; 15 / 8 * B2R mu * B2R J; B2R Re ^ 4;
    15 / 8 * B2R mu * B2R J * B2R Re ^ 4; r ^ 7; F4] ->
  Forall (in_range 1000) [F4 * B2R x; F4 * B2R y; F4 * B2R z] ->
  @j4_acc _ NB t (x :: y :: z :: rest) args = Ok g ->
  good 1079 (Rabs (F4 * B2R x)) (c0 g) (F4 * B2R x * (1 - 14 * (B2R z / r) ^ 2 + 21 * (B2R z / r) ^ 4)) /\
  good 1079 (Rabs (F4 * B2R y)) (c1 g) (F4 * B2R y * (1 - 14 * (B2R z / r) ^ 2 + 21 * (B2R z / r) ^ 4)) /\
  good 1113 (Rabs (F4 * B2R z)) (c2 g) (F4 * B2R z * (5 - 70 * (B2R z / r) ^ 2 / 3 + 21 * (B2R z / r) ^ 4)).
Proof using FJ FR Fm Fx Fy Fz P Rx Ry Rz.
  intros G1 G2 G3 R1 R2 H. apply Fl_f4 in R1.
  inversion_clear R2 as [| ? ? H1 T]. inversion_clear T as [| ? ? H2 U]. inversion_clear U as [| ? ? H3 T].
  unfold j4_acc in H. rewrite !lookup_get, G1, G2, G3, norm_rf in H.
  cbn [bind jget Nat.min nth_error length Nat.sub] in H. apply Ok_inj in H. rewrite <- H. clear H. cbn [c0 c1 c2].
  split; [| split].
  - exact (proj1 (j4_x x Fx R1 H1)).
  - exact (proj1 (j4_x y Fy R1 H2)).
  - exact (proj2 (j4_x z Fz R1 H3)).
Qed.
End Grav.
