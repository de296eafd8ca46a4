(** * B64Closed: rounding errors of the closed formulas in double precision. *)
From Coq Require Import ZArith Reals Lra Lia Psatz Bool List String.
From Flocq Require Import Core IEEE754.BinarySingleNaN.
From Verif Require Import Num NumB64 SpecFl RelLib OrbIntegrals KepEqu Gravity B64Lib B64Acc B64Rel.
Import ListNotations.
Local Open Scope R_scope.

Lemma PI_digits : 3.141592653589793 < PI < 3.1415926535897933.
Proof.
  pose proof (PI_2_3_7_ineq 9) as [A B].
  unfold tg_alt, PI_2_3_7_tg, Ratan_seq in A, B. simpl in A, B. split; lra.
Qed.

Lemma Fl_pi : Fl 1 b64_pi PI.
Proof.
  assert (V : B2R b64_pi = 884279719003555 / 281474976710656).
  { assert (H : B2SF b64_pi = SpecFloat.S754_finite false 7074237752028440 (-51)) by (vm_compute; reflexivity).
    destruct b64_pi as [ | | | s m e H']; try discriminate. simpl in H. injection H as -> -> ->.
    unfold B2R, F2R. simpl. lra. }
  split; [vm_compute; reflexivity |].
  pose proof PI_digits as P. rewrite V. exists (884279719003555 / 281474976710656 / PI). split; [field; lra |].
  rewrite !pow_1. unfold eps.
  replace (/ (1 + / 9007199254740992)) with (9007199254740992 / 9007199254740993) by field.
  replace (1 + / 9007199254740992) with (9007199254740993 / 9007199254740992) by field.
  split.
  - apply Rmult_le_reg_r with PI; [lra |]. unfold Rdiv at 2. rewrite Rmult_assoc, Rinv_l by lra. lra.
  - apply Rmult_le_reg_r with PI; [lra |]. unfold Rdiv at 1. rewrite Rmult_assoc, Rinv_l by lra. lra.
Qed.

Lemma two_pi_range : in_range 3 (2 * PI).
Proof. pose proof PI_digits. apply range_between; [simpl; lra | lia]. Qed.

Lemma Fl_two_pi : Fl 2 (b64_mul (b64_Z 2) b64_pi) (2 * PI).
Proof.
  apply (Fl_mul 0 1); [lia | apply Fl_int; lia | exact Fl_pi |].
  apply (range_mono 3 1020); [lia | exact two_pi_range].
Qed.

(** ** Powers *)
Lemma Fl_sq (k : nat) (x : b64) (v : R) : (k + k <= 64)%nat -> Fl k x v -> normal (v ^ 2) ->
  Fl (S (k + k)) (b64_mul x x) (v ^ 2).
Proof.
  intros K F V. replace (v ^ 2) with (v * v) in * by ring. apply Fl_mul; assumption.
Qed.

Lemma Fl_cube (k : nat) (x : b64) (v : R) : (k + S (k + k) <= 64)%nat -> Fl k x v -> normal (v ^ 3) ->
  Fl (S (k + S (k + k))) (b64_mul x (b64_mul x x)) (v ^ 3).
Proof.
  intros K F V. replace (v ^ 3) with (v * v ^ 2) in * by ring.
  apply Fl_mul; [exact K | exact F | | exact V].
  apply Fl_sq; [lia | exact F |].
  apply (range_pow 1020 2 3); [lia | lia |]. replace (v ^ 3) with (v * v ^ 2) by ring. exact V.
Qed.

Ltac done_close k := match goal with |- _ /\ close (?c * _) _ _ => apply (Fl_close k); [lia |] end.

(** ** Orbital integrals *)
Section Closed.
Variable L : libm64.
Let NB := Num_B64 L.

Lemma period_close (a mu : b64) : is_finite a = true -> is_finite mu = true -> 0 < B2R a -> 0 < B2R mu ->
  in_range 1020 (B2R a ^ 3) -> in_range 1020 (B2R a ^ 3 / B2R mu) ->
  let P := @orb_period _ NB a mu in
  is_finite P = true /\ close (7 * eps) (B2R P) (2 * PI * sqrt (B2R a ^ 3 / B2R mu)).
Proof.
  intros Fa Fm A M R1 R2 P.
  replace 7 with (INR 6 + 1) by (rewrite INR_IZR_INZ; simpl; lra). apply Fl_close; [lia |].
  change P with (b64_mul (b64_mul (b64_Z 2) b64_pi) (b64_sqrt (b64_div (b64_mul a (b64_mul a a)) mu))).
  assert (Q : 0 < B2R a ^ 3 / B2R mu) by (apply Rdiv_lt_0_compat; [apply pow_lt; exact A | exact M]).
  apply (Fl_mul 2 3); [lia | exact Fl_two_pi | |].
  - apply (Fl_sqrt 2); [lia | exact Q | | exact R2].
    apply (Fl_mono 3); [lia |]. apply (Fl_div 2 0); [lia | lra | | apply Fl_exact; exact Fm | exact R2].
    apply (Fl_cube 0); [lia | apply Fl_exact; exact Fa | exact R1].
  - apply (range_mono 514 1020); [lia |]. apply (range_mul 3 511); [lia | lia | exact two_pi_range |].
    apply range_sqrt; [lia | exact Q | exact (range_mono 1020 1022 _ ltac:(lia) R2)].
Qed.

Lemma motion_close (P : b64) : is_finite P = true -> B2R P <> 0 -> in_range 1017 (B2R P) ->
  let n := @mean_motion _ NB P in is_finite n = true /\ close (4 * eps) (B2R n) (2 * PI / B2R P).
Proof.
  intros F Z R1 n. replace 4 with (INR 3 + 1) by (rewrite INR_IZR_INZ; simpl; lra). apply Fl_close; [lia |].
  change n with (b64_div (b64_mul (b64_Z 2) b64_pi) P).
  apply (Fl_div 2 0); [lia | exact Z | exact Fl_two_pi | apply Fl_exact; exact F |].
  apply (range_div 3 1017); [lia | lia | exact two_pi_range | exact R1].
Qed.

Lemma semiparameter_close (h mu : b64) : is_finite h = true -> is_finite mu = true -> B2R mu <> 0 ->
  in_range 1020 (B2R h ^ 2) -> in_range 1020 (B2R h ^ 2 / B2R mu) ->
  let p := @semiparameter _ NB h mu in is_finite p = true /\ close (3 * eps) (B2R p) (B2R h ^ 2 / B2R mu).
Proof.
  intros Fh Fm Z R1 R2 p. replace 3 with (INR 2 + 1) by (rewrite INR_IZR_INZ; simpl; lra).
  apply Fl_close; [lia |]. change p with (b64_div (b64_mul h h) mu).
  apply (Fl_div 1 0); [lia | exact Z | | apply Fl_exact; exact Fm | exact R2].
  apply (Fl_sq 0); [lia | apply Fl_exact; exact Fh | exact R1].
Qed.

Lemma periapsis_close (p e : b64) : is_finite p = true -> is_finite e = true -> 0 <= B2R e <= IZR (2 ^ 1019) ->
  in_range 1020 (B2R p / (1 + B2R e)) ->
  let r := @radius_periapsis _ NB p e in is_finite r = true /\ close (3 * eps) (B2R r) (B2R p / (1 + B2R e)).
Proof.
  intros Fp Fe E R1 r. replace 3 with (INR 2 + 1) by (rewrite INR_IZR_INZ; simpl; lra).
  apply Fl_close; [lia |]. change r with (b64_div p (b64_add (b64_Z 1) e)).
  apply (Fl_div 0 1); [lia | lra | apply Fl_exact; exact Fp | | exact R1].
  apply (Fl_add 0); [lia | lra | lra | apply Fl_int; lia | apply Fl_exact; exact Fe |].
  apply range_between; [| lia]. pose proof (two_pow_inv 1020 ltac:(lia)).
  assert (IZR (2 ^ 1019) + 1 <= IZR (2 ^ 1020)) by (rewrite <- plus_IZR; apply IZR_le; lia). lra.
Qed.

(** no cancellation in [1 - e] because both operands are exact *)
Lemma apoapsis_close (p e : b64) : is_finite p = true -> is_finite e = true -> B2R e <> 1 ->
  in_range 1020 (1 - B2R e) -> in_range 1020 (B2R p / (1 - B2R e)) ->
  let r := @radius_apoapsis _ NB p e in is_finite r = true /\ close (3 * eps) (B2R r) (B2R p / (1 - B2R e)).
Proof.
  intros Fp Fe Z R0 R1 r. replace 3 with (INR 2 + 1) by (rewrite INR_IZR_INZ; simpl; lra).
  apply Fl_close; [lia |]. change r with (b64_div p (b64_sub (b64_Z 1) e)).
  destruct (Fl_int 1 ltac:(lia)) as [F1 [t [V1 T]]].
  assert (V : B2R (b64_Z 1) = 1) by (simpl in T; rewrite Rinv_1 in T; replace t with 1 in V1 by lra; lra).
  apply (Fl_div 0 1); [lia | lra | apply Fl_exact; exact Fp | | exact R1].
  rewrite <- V in *. apply Fl_sub; assumption.
Qed.

(** ** Mean anomaly *)
Lemma anomaly_elps_close (a dt mu : b64) : is_finite a = true -> is_finite dt = true -> is_finite mu = true ->
  0 < B2R a -> 0 < B2R mu -> in_range 1020 (B2R a ^ 3) -> in_range 1020 (B2R mu / B2R a ^ 3) ->
  in_range 1020 (sqrt (B2R mu / B2R a ^ 3) * B2R dt) ->
  let M := @mean_anomaly_elps _ NB a dt mu in
  is_finite M = true /\ close (5 * eps) (B2R M) (sqrt (B2R mu / B2R a ^ 3) * B2R dt).
Proof.
  intros Fa Fd Fm A M R1 R2 R3 Ma. replace 5 with (INR 4 + 1) by (rewrite INR_IZR_INZ; simpl; lra).
  apply Fl_close; [lia |].
  change Ma with (b64_mul (b64_sqrt (b64_div mu (b64_mul a (b64_mul a a)))) dt).
  assert (P : 0 < B2R a ^ 3) by (apply pow_lt; exact A).
  assert (Q : 0 < B2R mu / B2R a ^ 3) by (apply Rdiv_lt_0_compat; assumption).
  apply (Fl_mul 3 0); [lia | | apply Fl_exact; exact Fd | exact R3].
  apply (Fl_sqrt 2); [lia | exact Q | | exact R2]. apply (Fl_mono 3); [lia |].
  apply (Fl_div 0 2); [lia | lra | apply Fl_exact; exact Fm | | exact R2].
  apply (Fl_cube 0); [lia | apply Fl_exact; exact Fa | exact R1].
Qed.

Lemma anomaly_hypb_close (a dt mu : b64) : is_finite a = true -> is_finite dt = true -> is_finite mu = true ->
  B2R a < 0 -> 0 < B2R mu -> in_range 1020 (B2R a ^ 3) -> in_range 1020 (B2R mu / (- B2R a ^ 3)) ->
  in_range 1020 (sqrt (B2R mu / (- B2R a ^ 3)) * B2R dt) ->
  let M := @mean_anomaly_hypb _ NB a dt mu in
  is_finite M = true /\ close (5 * eps) (B2R M) (sqrt (B2R mu / (- B2R a ^ 3)) * B2R dt).
Proof.
  intros Fa Fd Fm A M R1 R2 R3 Ma. replace 5 with (INR 4 + 1) by (rewrite INR_IZR_INZ; simpl; lra).
  apply Fl_close; [lia |].
  change Ma with (b64_mul (b64_sqrt (b64_div mu (Bopp (b64_mul a (b64_mul a a))))) dt).
  assert (P : 0 < - B2R a ^ 3).
  { replace (- B2R a ^ 3) with ((- B2R a) ^ 3) by ring. apply pow_lt. lra. }
  assert (Q : 0 < B2R mu / (- B2R a ^ 3)) by (apply Rdiv_lt_0_compat; assumption).
  apply (Fl_mul 3 0); [lia | | apply Fl_exact; exact Fd | exact R3].
  apply (Fl_sqrt 2); [lia | exact Q | | exact R2]. apply (Fl_mono 3); [lia |].
  apply (Fl_div 0 2); [lia | lra | apply Fl_exact; exact Fm | | exact R2].
  apply Fl_neg. apply (Fl_cube 0); [lia | apply Fl_exact; exact Fa | exact R1].
Qed.
End Closed.
