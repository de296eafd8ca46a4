(** * B64Fl: the double precision rounding theorems assembled, and their examples. *)
From Coq Require Import ZArith Reals Lra Lia Psatz Bool List String.
From Flocq Require Import Core IEEE754.BinarySingleNaN.
From Verif Require Import Num NumR NumB64 SpecFl SpecFl64 RelLib OrbIntegrals KepEqu SpecGrav Gravity
  B64Lib B64Acc B64Rel B64Closed B64Grav B64Cancel.
Import ListNotations.
Local Open Scope R_scope.

Section Wrap.
Variable L : libm64.
Let NB := Num_B64 L.
Variables x y z mu : b64.
Variables (t : b64) (rest : list b64) (args : list (string * b64)) (g : V3 b64).
Hypothesis FP : Forall (fun c => is_finite c = true /\ in_range 250 (B2R c)) [x; y; z].
Let r := sqrt (B2R x ^ 2 + B2R y ^ 2 + B2R z ^ 2).
Hypothesis Pr : 0 < r.

Lemma parts : (is_finite x = true /\ in_range 250 (B2R x)) /\ (is_finite y = true /\ in_range 250 (B2R y)) /\
  (is_finite z = true /\ in_range 250 (B2R z)) /\ 0 < B2R x ^ 2 + B2R y ^ 2 + B2R z ^ 2.
Proof using FP Pr.
  inversion_clear FP as [| ? ? H1 T]. inversion_clear T as [| ? ? H2 U]. inversion_clear U as [| ? ? H3 T].
  repeat split; try tauto. apply Rnot_le_lt. intro K. unfold r in Pr. rewrite sqrt_neg in Pr by exact K. lra.
Qed.

Lemma pm_off : is_finite mu = true -> get "mu"%string args = Some mu ->
  Forall (in_range 1020) [B2R mu / r ^ 3; B2R mu / r ^ 3 * B2R x; B2R mu / r ^ 3 * B2R y; B2R mu / r ^ 3 * B2R z] ->
  @point_mass_grav _ NB t (x :: y :: z :: rest) args = Ok g ->
  off64 14 (Rabs (- (B2R mu / r ^ 3) * B2R x)) (c0 g) (- (B2R mu / r ^ 3) * B2R x) /\
  off64 14 (Rabs (- (B2R mu / r ^ 3) * B2R y)) (c1 g) (- (B2R mu / r ^ 3) * B2R y) /\
  off64 14 (Rabs (- (B2R mu / r ^ 3) * B2R z)) (c2 g) (- (B2R mu / r ^ 3) * B2R z).
Proof using FP Pr.
  intros Fm G R1 H. destruct parts as [[Fx Rx] [[Fy Ry] [[Fz Rz] P]]].
  inversion_clear R1 as [| ? ? H1 T]. inversion_clear T as [| ? ? H2 U]. inversion_clear U as [| ? ? H3 T].
  inversion_clear T as [| ? ? H4 U].
  exact (pm_close L x y z Fx Fy Fz Rx Ry Rz P mu Fm t rest args g G H1 H2 H3 H4 H).
Qed.

Variables J Re : b64.
Hypothesis FA : Forall (fun c => is_finite c = true) [mu; J; Re].

Lemma parts2 : is_finite mu = true /\ is_finite J = true /\ is_finite Re = true.
Proof using FA.
  inversion_clear FA as [| ? ? H1 T]. inversion_clear T as [| ? ? H2 U]. inversion_clear U as [| ? ? H3 T]. auto.
Qed.

Lemma j2_off : get "mu"%string args = Some mu -> get "J2"%string args = Some J -> get "R_eq"%string args = Some Re ->
  let F := -3 / 2 * B2R mu * B2R J * B2R Re ^ 2 / r ^ 5 in let s := (B2R z / r) ^ 2 in
  Forall (in_range 1020) [-3 / 2 * B2R mu; -3 / 2 * B2R mu * B2R J; B2R Re ^ 2;
    -3 / 2 * B2R mu * B2R J * B2R Re ^ 2; r ^ 5; F] ->
  Forall (in_range 1000) [F * B2R x; F * B2R y; F * B2R z] ->
  @j2_acc _ NB t (x :: y :: z :: rest) args = Ok g ->
  off64 184 (Rabs (F * B2R x)) (c0 g) (F * B2R x * (1 - 5 * s)) /\
  off64 184 (Rabs (F * B2R y)) (c1 g) (F * B2R y * (1 - 5 * s)) /\
  off64 155 (Rabs (F * B2R z)) (c2 g) (F * B2R z * (3 - 5 * s)).
Proof using FP Pr FA.
  intros G1 G2 G3 F s R1 R2 H. destruct parts as [[Fx Rx] [[Fy Ry] [[Fz Rz] P]]]. destruct parts2 as [Fm [FJ FR]].
  exact (j2_close L x y z Fx Fy Fz Rx Ry Rz P mu Fm J Re FJ FR t rest args g G1 G2 G3 R1 R2 H).
Qed.

Lemma j3_off : get "mu"%string args = Some mu -> get "J3"%string args = Some J -> get "R_eq"%string args = Some Re ->
  let F := -5 / 2 * B2R mu * B2R J * B2R Re ^ 3 / r ^ 7 in let w := B2R z ^ 3 / r ^ 2 in
  Forall (in_range 1020) [-5 / 2 * B2R mu; -5 / 2 * B2R mu * B2R J; B2R Re ^ 3;
    -5 / 2 * B2R mu * B2R J * B2R Re ^ 3; r ^ 7; F] ->
  Forall (in_range 1017) [B2R z ^ 3; w; 7 * w * B2R z] ->
  Forall (in_range 1000) [F * B2R x; F * B2R y; F * B2R x * r; F * B2R y * r; F * r ^ 2] ->
  @j3_acc _ NB t (x :: y :: z :: rest) args = Ok g ->
  off64 472 (Rabs (F * B2R x) * r) (c0 g) (F * B2R x * (3 * B2R z - 7 * w)) /\
  off64 472 (Rabs (F * B2R y) * r) (c1 g) (F * B2R y * (3 * B2R z - 7 * w)) /\
  off64 649 (Rabs F * r ^ 2) (c2 g) (F * (6 * B2R z ^ 2 - 7 * w * B2R z - 3 / 5 * r ^ 2)).
Proof using FP Pr FA.
  intros G1 G2 G3 F w R1 R2 R3 H. destruct parts as [[Fx Rx] [[Fy Ry] [[Fz Rz] P]]]. destruct parts2 as [Fm [FJ FR]].
  exact (j3_close L x y z Fx Fy Fz Rx Ry Rz P mu Fm J Re FJ FR t rest args g G1 G2 G3 R1 R2 R3 H).
Qed.

Lemma j4_off : get "mu"%string args = Some mu -> get "J4"%string args = Some J -> get "R_eq"%string args = Some Re ->
  let F := 15 / 8 * B2R mu * B2R J * B2R Re ^ 4 / r ^ 7 in let q := B2R z / r in
  Forall (in_range 1020) [15 / 8 * B2R mu; 15 / 8 * B2R mu * B2R J; B2R Re ^ 4;
    15 / 8 * B2R mu * B2R J * B2R Re ^ 4; r ^ 7; F] ->
  Forall (in_range 1000) [F * B2R x; F * B2R y; F * B2R z] ->
  @j4_acc _ NB t (x :: y :: z :: rest) args = Ok g ->
  off64 1079 (Rabs (F * B2R x)) (c0 g) (F * B2R x * (1 - 14 * q ^ 2 + 21 * q ^ 4)) /\
  off64 1079 (Rabs (F * B2R y)) (c1 g) (F * B2R y * (1 - 14 * q ^ 2 + 21 * q ^ 4)) /\
  off64 1113 (Rabs (F * B2R z)) (c2 g) (F * B2R z * (5 - 70 * q ^ 2 / 3 + 21 * q ^ 4)).
Proof using FP Pr FA.
  intros G1 G2 G3 F q R1 R2 H. destruct parts as [[Fx Rx] [[Fy Ry] [[Fz Rz] P]]]. destruct parts2 as [Fm [FJ FR]].
  exact (j4_close L x y z Fx Fy Fz Rx Ry Rz P mu Fm J Re FJ FR t rest args g G1 G2 G3 R1 R2 H).
Qed.

End Wrap.

(** ** Examples *)
Lemma int_val (n : Z) : (Z.abs n < 2 ^ 53)%Z -> B2R (b64_Z n) = IZR n /\ is_finite (b64_Z n) = true.
Proof.
  intro H. destruct (Fl_int n H) as [F [t [V T]]]. split; [| exact F]. rewrite V. simpl in T.
  replace t with 1 by (rewrite Rinv_1 in T; lra). ring.
Qed.

Ltac inr := right; rewrite Rabs_pos_eq by lra; split; [simpl; lra | simpl; lra].
Ltac inrn := right; rewrite Rabs_left by lra; split; [simpl; lra | simpl; lra].

(** a = mu = 1: the period is 2 pi to 7 units *)
Lemma period_at_1 (L : libm64) : let N := Num_B64 L in
  off64 7 (2 * PI) (@orb_period _ N (b64_Z 1) (b64_Z 1)) (2 * PI).
Proof.
  intro N. destruct (int_val 1 ltac:(lia)) as [V F].
  destruct (period_close L (b64_Z 1) (b64_Z 1) F F ltac:(rewrite V; lra) ltac:(rewrite V; lra)
    ltac:(rewrite V; inr) ltac:(rewrite V; inr)) as [G1 G2].
  split; [exact G1 |]. unfold SpecFl.close in G2. rewrite V in G2. replace (1 ^ 3 / 1) with 1 in G2 by field.
  rewrite sqrt_1, Rmult_1_r in G2. pose proof PI_RGT_0. rewrite (Rabs_pos_eq (2 * PI)) in G2 by lra. exact G2.
Qed.

(** position (3, 4, 12), at distance 13 *)
Definition args_for (name : string) (J : b64) : list (string * b64) :=
  [("mu"%string, b64_Z 1); (name, J); ("R_eq"%string, b64_Z 1)].

Lemma pos_ok : Forall (fun c => is_finite c = true /\ in_range 250 (B2R c)) [b64_Z 3; b64_Z 4; b64_Z 12].
Proof.
  repeat (apply Forall_cons; [split; [apply int_val; lia | rewrite (fun n H => proj1 (int_val n H)) by lia; inr] |]).
  apply Forall_nil.
Qed.

Lemma r13 : sqrt (B2R (b64_Z 3) ^ 2 + B2R (b64_Z 4) ^ 2 + B2R (b64_Z 12) ^ 2) = 13.
Proof.
  rewrite !(fun n H => proj1 (int_val n H)) by lia.
  replace (3 ^ 2 + 4 ^ 2 + 12 ^ 2) with (13 * 13) by ring. apply sqrt_square. lra.
Qed.

Ltac many t := repeat (apply Forall_cons; [t |]); apply Forall_nil.

Lemma pm_at_13 (L : libm64) : exists g,
  @point_mass_grav _ (Num_B64 L) (b64_Z 0) [b64_Z 3; b64_Z 4; b64_Z 12] [("mu"%string, b64_Z 1)] = Ok g /\
  off64 14 (12 / 2197) (c2 g) (- (12 / 2197)).
Proof.
  eexists. split; [reflexivity |].
  set (g := mk3 _ _ _).
  pose proof (pm_off L (b64_Z 3) (b64_Z 4) (b64_Z 12) (b64_Z 1) (b64_Z 0) [] [("mu"%string, b64_Z 1)] g pos_ok
    ltac:(rewrite r13; lra) (proj2 (int_val 1 ltac:(lia))) eq_refl) as H.
  cbv zeta in H. rewrite !r13, !(fun n H => proj1 (int_val n H)) in H by lia.
  destruct H as [_ [_ [F H]]].
  - many ltac:(inr).
  - reflexivity.
  - split; [exact F |].
    replace (- (1 / 13 ^ 3) * 12) with (- (12 / 2197)) in H by field.
    rewrite Rabs_Ropp, (Rabs_pos_eq (12 / 2197)) in H by lra. exact H.
Qed.

Lemma half_val : B2R (b64_dec 1 1024) = 1 / 1024 /\ is_finite (b64_dec 1 1024) = true.
Proof.
  assert (H : B2SF (b64_dec 1 1024) = SpecFloat.S754_finite false 4503599627370496 (-62)) by (vm_compute; reflexivity).
  split.
  - rewrite <- SF2R_B2SF, H. unfold SF2R, F2R. simpl. lra.
  - rewrite <- is_finite_SF_B2SF, H. reflexivity.
Qed.

Lemma consts_ok : Forall (fun c => is_finite c = true) [b64_Z 1; b64_dec 1 1024; b64_Z 1].
Proof.
  repeat (apply Forall_cons; [first [exact (proj2 half_val) | apply int_val; lia] |]). apply Forall_nil.
Qed.

Lemma j2_at_13 (L : libm64) : exists g,
  @j2_acc _ (Num_B64 L) (b64_Z 0) [b64_Z 3; b64_Z 4; b64_Z 12] (args_for "J2" (b64_dec 1 1024)) = Ok g /\
  off64 184 (9 / 2048 / 371293) (c0 g) (9 / 2048 / 371293 * (551 / 169)).
Proof.
  eexists. split; [reflexivity |].
  set (g := mk3 _ _ _).
  pose proof (j2_off L (b64_Z 3) (b64_Z 4) (b64_Z 12) (b64_Z 1) (b64_Z 0) [] (args_for "J2" (b64_dec 1 1024)) g pos_ok
    ltac:(rewrite r13; lra) (b64_dec 1 1024) (b64_Z 1) consts_ok eq_refl eq_refl eq_refl) as H.
  cbv zeta in H. rewrite !r13, !(proj1 half_val), !(fun n H => proj1 (int_val n H)) in H by lia.
  destruct H as [[F H] _].
  - many ltac:(first [inr | inrn]).
  - many ltac:(first [inr | inrn]).
  - reflexivity.
  - split; [exact F |].
    replace (-3 / 2 * 1 * (1 / 1024) * 1 ^ 2 / 13 ^ 5 * 3) with (- (9 / 2048 / 371293)) in H by field.
    rewrite Rabs_Ropp, (Rabs_pos_eq (9 / 2048 / 371293)) in H by lra.
    replace (- (9 / 2048 / 371293) * (1 - 5 * (12 / 13) ^ 2)) with (9 / 2048 / 371293 * (551 / 169)) in H by field.
    exact H.
Qed.

Lemma j3_at_13 (L : libm64) : exists g,
  @j3_acc _ (Num_B64 L) (b64_Z 0) [b64_Z 3; b64_Z 4; b64_Z 12] (args_for "J3" (b64_dec 1 1024)) = Ok g /\
  off64 649 (5 / 2048 / 371293) (c2 g) (5 / 2048 / 62748517 * (145152 / 169 + 507 / 5 - 864)).
Proof.
  eexists. split; [reflexivity |].
  set (g := mk3 _ _ _).
  pose proof (j3_off L (b64_Z 3) (b64_Z 4) (b64_Z 12) (b64_Z 1) (b64_Z 0) [] (args_for "J3" (b64_dec 1 1024)) g pos_ok
    ltac:(rewrite r13; lra) (b64_dec 1 1024) (b64_Z 1) consts_ok eq_refl eq_refl eq_refl) as H.
  cbv zeta in H. rewrite !r13, !(proj1 half_val), !(fun n H => proj1 (int_val n H)) in H by lia.
  destruct H as [_ [_ [F H]]].
  - many ltac:(first [inr | inrn]).
  - many ltac:(first [inr | inrn]).
  - many ltac:(first [inr | inrn]).
  - reflexivity.
  - split; [exact F |].
    replace (-5 / 2 * 1 * (1 / 1024) * 1 ^ 3 / 13 ^ 7) with (- (5 / 2048 / 62748517)) in H by field.
    rewrite Rabs_Ropp, (Rabs_pos_eq (5 / 2048 / 62748517)) in H by lra.
    replace (5 / 2048 / 62748517 * 13 ^ 2) with (5 / 2048 / 371293) in H by field.
    replace (- (5 / 2048 / 62748517) * (6 * 12 ^ 2 - 7 * (12 ^ 3 / 13 ^ 2) * 12 - 3 / 5 * 13 ^ 2))
      with (5 / 2048 / 62748517 * (145152 / 169 + 507 / 5 - 864)) in H by field.
    exact H.
Qed.

Lemma j4_at_13 (L : libm64) : exists g,
  @j4_acc _ (Num_B64 L) (b64_Z 0) [b64_Z 3; b64_Z 4; b64_Z 12] (args_for "J4" (b64_dec 1 1024)) = Ok g /\
  off64 1079 (45 / 8192 / 62748517) (c0 g) (45 / 8192 / 62748517 * (1 - 14 * (12 / 13) ^ 2 + 21 * (12 / 13) ^ 4)).
Proof.
  eexists. split; [reflexivity |].
  set (g := mk3 _ _ _).
  pose proof (j4_off L (b64_Z 3) (b64_Z 4) (b64_Z 12) (b64_Z 1) (b64_Z 0) [] (args_for "J4" (b64_dec 1 1024)) g pos_ok
    ltac:(rewrite r13; lra) (b64_dec 1 1024) (b64_Z 1) consts_ok eq_refl eq_refl eq_refl) as H.
  cbv zeta in H. rewrite !r13, !(proj1 half_val), !(fun n H => proj1 (int_val n H)) in H by lia.
  destruct H as [[F H] _].
  - many ltac:(first [inr | inrn]).
  - many ltac:(first [inr | inrn]).
  - reflexivity.
  - split; [exact F |].
    replace (15 / 8 * 1 * (1 / 1024) * 1 ^ 4 / 13 ^ 7 * 3) with (45 / 8192 / 62748517) in H by field.
    rewrite (Rabs_pos_eq (45 / 8192 / 62748517)) in H by lra. exact H.
Qed.

(** r = 1, v = 1, mu = 1: a = 1 *)
Lemma semimajor_at_1 (L : libm64) :
  off64 54 1 (@semimajor_axis _ (Num_B64 L) (b64_Z 1) (b64_Z 1) (b64_Z 1)) 1.
Proof.
  destruct (int_val 1 ltac:(lia)) as [V F].
  pose proof (semimajor_close L (b64_Z 1) (b64_Z 1) (b64_Z 1) F F F ltac:(rewrite V; lra) ltac:(rewrite V; lra)) as H.
  cbv zeta in H. rewrite V in H.
  destruct H as [G1 G2].
  - many ltac:(inr).
  - inr.
  - inr.
  - lra.
  - unfold eps. rewrite Rabs_pos_eq by lra. lra.
  - split; [exact G1 |]. unfold SpecFl.close in G2.
    replace (1 / (2 / 1 - 1 ^ 2 / 1)) with 1 in G2 by field.
    replace (2 / 1 + 1 ^ 2 / 1) with 3 in G2 by field. replace (2 / 1 - 1 ^ 2 / 1) with 1 in G2 by field.
    rewrite Rabs_R1 in G2. apply Rle_trans with (1 := G2). right. unfold eps. simpl. lra.
Qed.

(** the low Earth orbit of C67, in metres *)
Definition leo_args (name : string) (J : b64) : list (string * b64) :=
  [("mu"%string, b64_Z 398600441800000); (name, J); ("R_eq"%string, b64_Z 6378137)].
Definition sf3 (g : res (V3 b64)) : option (SpecFloat.spec_float * SpecFloat.spec_float * SpecFloat.spec_float) :=
  match g with Ok g => Some (B2SF (c0 g), B2SF (c1 g), B2SF (c2 g)) | _ => None end.

Lemma leo_j4_kept (L : libm64) :
  sf3 (@j4_acc _ (Num_B64 L) (b64_Z 0) [b64_Z 7000000; b64_Z 0; b64_Z 0] (leo_args "J4" (b64_dec (-162) 100000000)))
  = Some (SpecFloat.S754_finite true 5026676094499045 (-68), SpecFloat.S754_zero true, SpecFloat.S754_zero true).
Proof. vm_compute. reflexivity. Qed.
