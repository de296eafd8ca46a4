(** * Properties C06-C09: the universal functions

    Theorems only; proofs are in [SeriesU] and [UFacts].  [universal] is the
    power series of [Spec]. *)
From Coq Require Import Reals Lra.
From Coquelicot Require Import Coquelicot.
From Verif Require Import Num NumR Spec Uniformulas SeriesU UFacts OrbFacts2.
Local Open Scope R_scope.

(** ** C06 *)
Theorem C06_series_converges : forall (n : nat) (chi alpha : R),
  ex_series (fun k => (- alpha) ^ k * chi ^ (2 * k + n) / INR (fact (2 * k + n))).
Proof. exact universal_ex. Qed.
Print Assumptions C06_series_converges.

Theorem C06_one_family : forall chi alpha : R,
  ufunc0 chi alpha = universal 0 chi alpha /\ ufunc1 chi alpha = universal 1 chi alpha /\
  ufunc2 chi alpha = universal 2 chi alpha /\ ufunc3 chi alpha = universal 3 chi alpha /\
  ufunc4 chi alpha = universal 4 chi alpha /\ ufunc5 chi alpha = universal 5 chi alpha.
Proof. exact ufunc_universal. Qed.
Print Assumptions C06_one_family.

(** The parabolic branch is the limit of the other two. *)
Theorem C06_branches_join : forall chi : R,
  filterlim (ufunc0 chi) (locally 0) (locally (ufunc0 chi 0)) /\
  filterlim (ufunc1 chi) (locally 0) (locally (ufunc1 chi 0)) /\
  filterlim (ufunc2 chi) (locally 0) (locally (ufunc2 chi 0)) /\
  filterlim (ufunc3 chi) (locally 0) (locally (ufunc3 chi 0)) /\
  filterlim (ufunc4 chi) (locally 0) (locally (ufunc4 chi 0)) /\
  filterlim (ufunc5 chi) (locally 0) (locally (ufunc5 chi 0)).
Proof. exact ufunc_join. Qed.
Print Assumptions C06_branches_join.

(** The branches join differentiably: each function has a derivative in alpha everywhere, alpha = 0 included. *)
Theorem C06_smooth_join : forall chi alpha : R,
  let D (n : nat) := (INR n * universal (n + 2) chi alpha - chi * universal (n + 1) chi alpha) / 2 in
  is_derive (fun a : R => ufunc0 chi a) alpha (D 0%nat) /\ is_derive (fun a : R => ufunc1 chi a) alpha (D 1%nat) /\
  is_derive (fun a : R => ufunc2 chi a) alpha (D 2%nat) /\ is_derive (fun a : R => ufunc3 chi a) alpha (D 3%nat) /\
  is_derive (fun a : R => ufunc4 chi a) alpha (D 4%nat) /\ is_derive (fun a : R => ufunc5 chi a) alpha (D 5%nat).
Proof. exact ufunc_smooth. Qed.
Print Assumptions C06_smooth_join.

(** The three branches give different closed forms of the same function. *)
Example C06_example : ufunc1 2 1 = sin 2 /\ ufunc1 2 0 = 2 /\ ufunc1 2 (-1) = sinh 2.
Proof. exact ufunc1_branches. Qed.

(** ** C07 *)
Theorem C07_derivative_chi : forall chi alpha : R,
  is_derive (fun x => ufunc0 x alpha) chi (- alpha * ufunc1 chi alpha) /\
  is_derive (fun x => ufunc1 x alpha) chi (ufunc0 chi alpha) /\
  is_derive (fun x => ufunc2 x alpha) chi (ufunc1 chi alpha) /\
  is_derive (fun x => ufunc3 x alpha) chi (ufunc2 chi alpha) /\
  is_derive (fun x => ufunc4 x alpha) chi (ufunc3 chi alpha) /\
  is_derive (fun x => ufunc5 x alpha) chi (ufunc4 chi alpha).
Proof. exact ufunc_dchi. Qed.
Print Assumptions C07_derivative_chi.

Theorem C07_derivative_alpha : forall chi alpha : R,
  is_derive (fun a => ufunc0 chi a) alpha (- chi * ufunc1 chi alpha / 2) /\
  is_derive (fun a => ufunc1 chi a) alpha ((ufunc3 chi alpha - chi * ufunc2 chi alpha) / 2) /\
  is_derive (fun a => ufunc2 chi a) alpha ((2 * ufunc4 chi alpha - chi * ufunc3 chi alpha) / 2) /\
  is_derive (fun a => ufunc3 chi a) alpha ((3 * ufunc5 chi alpha - chi * ufunc4 chi alpha) / 2).
Proof. exact ufunc_dalpha. Qed.
Print Assumptions C07_derivative_alpha.

(** At alpha = 0, where the code switches branches, the slope in alpha of [ufunc0] is -chi^2/2. *)
Example C07_example : is_derive (fun a => ufunc0 3 a) 0 (- 3 * ufunc1 3 0 / 2) /\ ufunc1 3 0 = 3.
Proof. exact (conj (proj1 (C07_derivative_alpha 3 0)) (ufunc1_par 3)). Qed.

(** ** C08 *)
Theorem C08_recurrence : forall chi alpha : R,
  ufunc0 chi alpha + alpha * ufunc2 chi alpha = 1 /\
  ufunc1 chi alpha + alpha * ufunc3 chi alpha = chi /\
  ufunc2 chi alpha + alpha * ufunc4 chi alpha = chi ^ 2 / 2 /\
  ufunc3 chi alpha + alpha * ufunc5 chi alpha = chi ^ 3 / 6.
Proof. exact ufunc_rec. Qed.
Print Assumptions C08_recurrence.

Theorem C08_squares : forall chi alpha : R,
  ufunc0 chi alpha ^ 2 + alpha * ufunc1 chi alpha ^ 2 = 1 /\
  ufunc1 chi alpha ^ 2 = ufunc2 chi alpha * (1 + ufunc0 chi alpha).
Proof. exact ufunc_squares. Qed.
Print Assumptions C08_squares.

Theorem C08_addition : forall x y alpha : R,
  ufunc0 (x + y) alpha = ufunc0 x alpha * ufunc0 y alpha - alpha * ufunc1 x alpha * ufunc1 y alpha /\
  ufunc1 (x + y) alpha = ufunc1 x alpha * ufunc0 y alpha + ufunc0 x alpha * ufunc1 y alpha /\
  ufunc2 (x + y) alpha = ufunc2 x alpha + ufunc0 x alpha * ufunc2 y alpha + ufunc1 x alpha * ufunc1 y alpha /\
  ufunc3 (x + y) alpha
  = ufunc3 x alpha + ufunc3 y alpha + ufunc2 x alpha * ufunc1 y alpha + ufunc1 x alpha * ufunc2 y alpha.
Proof. exact ufunc_addition. Qed.
Print Assumptions C08_addition.

Example C08_example : ufunc3 (1 + 2) 0 = ufunc3 1 0 + ufunc3 2 0 + ufunc2 1 0 * ufunc1 2 0 + ufunc1 1 0 * ufunc2 2 0
  /\ ufunc3 (1 + 2) 0 = 9 / 2.
Proof. exact (conj (proj2 (proj2 (proj2 (C08_addition 1 2 0)))) ufunc3_par). Qed.

(** ** C09 *)
Theorem C09_parity : forall chi alpha : R,
  ufunc0 (- chi) alpha = ufunc0 chi alpha /\ ufunc1 (- chi) alpha = - ufunc1 chi alpha /\
  ufunc2 (- chi) alpha = ufunc2 chi alpha /\ ufunc3 (- chi) alpha = - ufunc3 chi alpha /\
  ufunc4 (- chi) alpha = ufunc4 chi alpha /\ ufunc5 (- chi) alpha = - ufunc5 chi alpha.
Proof. exact ufunc_parity. Qed.
Print Assumptions C09_parity.

Theorem C09_at_zero : forall alpha : R,
  ufunc0 0 alpha = 1 /\ ufunc1 0 alpha = 0 /\ ufunc2 0 alpha = 0 /\
  ufunc3 0 alpha = 0 /\ ufunc4 0 alpha = 0 /\ ufunc5 0 alpha = 0.
Proof. exact ufunc_zero. Qed.
Print Assumptions C09_at_zero.

Theorem C09_units : forall k chi alpha : R, 0 < k ->
  ufunc0 (k * chi) (alpha / k ^ 2) = ufunc0 chi alpha /\
  ufunc1 (k * chi) (alpha / k ^ 2) = k * ufunc1 chi alpha /\
  ufunc2 (k * chi) (alpha / k ^ 2) = k ^ 2 * ufunc2 chi alpha /\
  ufunc3 (k * chi) (alpha / k ^ 2) = k ^ 3 * ufunc3 chi alpha /\
  ufunc4 (k * chi) (alpha / k ^ 2) = k ^ 4 * ufunc4 chi alpha /\
  ufunc5 (k * chi) (alpha / k ^ 2) = k ^ 5 * ufunc5 chi alpha.
Proof. exact ufunc_units. Qed.
Print Assumptions C09_units.

Example C09_example : ufunc1 (2 * PI) (1 / 2 ^ 2) = 2 * ufunc1 PI 1 /\ ufunc1 (- 5) 0 = - ufunc1 5 0.
Proof. exact (conj (proj1 (proj2 (C09_units 2 PI 1 Rlt_0_2))) (proj1 (proj2 (C09_parity 5 0)))). Qed.
