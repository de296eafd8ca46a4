(** * Mutants3: wrong Newton loops, and the properties that are false of them (see [Mutants])

    The statements quantify over every arithmetic; they are refuted in single precision with the
    reference libm of [LibmRef].  Where a wrong loop makes more steps than [loop_fuel] provides, the
    wrong model returns the guess. *)
From Coq Require Import ZArith List Bool Lia.
Import ListNotations.
From Flocq Require Import Core IEEE754.BinarySingleNaN.
From Verif Require Import Num NumB32 Spec OrbIntegrals Uniformulas KepEqu StateTrans PropKepler LoopFacts LibmRef.

Section Wrong.
  Context {T : Type} {N : Num T}.
  Local Open Scope num_scope.

  (* m029: elps_cond *)
  Definition m029_elps_cond (tol : T) (max_iter : Z) (val : loop_state) : bool :=
    let '(iter_count, E, E_prev) := val in
    andb (exceeds (E - E_prev) tol) (Z.leb iter_count max_iter).
  Definition m029_elps_run (M e tol : T) (max_iter : Z) : option loop_state :=
    while_fuel (loop_fuel max_iter) (m029_elps_cond tol max_iter) (elps_body M e)
      (elps_init M e tol).
  Definition m029_solve_kepler_elps (M e tol : T) (max_iter : Z) : T :=
    match m029_elps_run M e tol max_iter with
    | Some (_, E, _) => E
    | None => elps_guess M e
    end.

  (* m030: elps_body *)
  Definition m030_elps_body (M e : T) (val : loop_state) : loop_state :=
    let '(iter_count, E, _) := val in
    let f := E - e * n_sin E - M in
    let E_new := E - f / dE E e in
    ((iter_count + 1)%Z, E_new, E_new).
  Definition m030_elps_run (M e tol : T) (max_iter : Z) : option loop_state :=
    while_fuel (loop_fuel max_iter) (elps_cond tol max_iter) (m030_elps_body M e)
      (elps_init M e tol).
  Definition m030_solve_kepler_elps (M e tol : T) (max_iter : Z) : T :=
    match m030_elps_run M e tol max_iter with
    | Some (_, E, _) => E
    | None => elps_guess M e
    end.

  (* m031: elps_body *)
  Definition m031_elps_body (M e : T) (val : loop_state) : loop_state :=
    let '(iter_count, E, _) := val in
    let f := E - e * n_sin E - M in
    let E_new := E + f / dE E e in
    ((iter_count + 1)%Z, E_new, E).
  Definition m031_elps_run (M e tol : T) (max_iter : Z) : option loop_state :=
    while_fuel (loop_fuel max_iter) (elps_cond tol max_iter) (m031_elps_body M e)
      (elps_init M e tol).
  Definition m031_solve_kepler_elps (M e tol : T) (max_iter : Z) : T :=
    match m031_elps_run M e tol max_iter with
    | Some (_, E, _) => E
    | None => elps_guess M e
    end.

  (* m032: elps_guess *)
  Definition m032_elps_guess (M e : T) : T :=
    M + e * n_sin M + e ** 2 * n_sin (#2 * M) * #2.
  Definition m032_elps_init (M e tol : T) : loop_state :=
    (0%Z, m032_elps_guess M e, m032_elps_guess M e + #2 * tol).
  Definition m032_elps_run (M e tol : T) (max_iter : Z) : option loop_state :=
    while_fuel (loop_fuel max_iter) (elps_cond tol max_iter) (elps_body M e)
      (m032_elps_init M e tol).
  Definition m032_solve_kepler_elps (M e tol : T) (max_iter : Z) : T :=
    match m032_elps_run M e tol max_iter with
    | Some (_, E, _) => E
    | None => m032_elps_guess M e
    end.

  (* m033: elps_init *)
  Definition m033_elps_init (M e tol : T) : loop_state :=
    (0%Z, elps_guess M e, elps_guess M e + tol).
  Definition m033_elps_run (M e tol : T) (max_iter : Z) : option loop_state :=
    while_fuel (loop_fuel max_iter) (elps_cond tol max_iter) (elps_body M e)
      (m033_elps_init M e tol).
  Definition m033_solve_kepler_elps (M e tol : T) (max_iter : Z) : T :=
    match m033_elps_run M e tol max_iter with
    | Some (_, E, _) => E
    | None => elps_guess M e
    end.

  (* m034: hypb_cond *)
  Definition m034_hypb_cond (Nm e tol : T) (max_iter : Z) (val : loop_state) : bool :=
    let '(iter_count, H, _) := val in
    andb (exceeds (H - Nm) tol) (Z.ltb iter_count max_iter).
  Definition m034_hypb_run (Nm e tol : T) (max_iter : Z) : option loop_state :=
    while_fuel (loop_fuel max_iter) (m034_hypb_cond Nm e tol max_iter) (hypb_body Nm e)
      (hypb_init Nm e tol).
  Definition m034_solve_kepler_hypb (Nm e tol : T) (max_iter : Z) : T :=
    match m034_hypb_run Nm e tol max_iter with
    | Some (_, H, _) => H
    | None => hypb_guess Nm e
    end.

  (* m035: hypb_body *)
  Definition m035_hypb_body (Nm e : T) (val : loop_state) : loop_state :=
    let '(iter_count, H, _) := val in
    let H_new := H - kepler_equ_hypb H e Nm / dE H e in
    ((iter_count + 1)%Z, H_new, H).
  Definition m035_hypb_run (Nm e tol : T) (max_iter : Z) : option loop_state :=
    while_fuel (loop_fuel max_iter) (hypb_cond Nm e tol max_iter) (m035_hypb_body Nm e)
      (hypb_init Nm e tol).
  Definition m035_solve_kepler_hypb (Nm e tol : T) (max_iter : Z) : T :=
    match m035_hypb_run Nm e tol max_iter with
    | Some (_, H, _) => H
    | None => hypb_guess Nm e
    end.

  (* m036: hypb_guess *)
  Definition m036_hypb_guess (Nm e : T) : T :=
    n_log (#2 * Nm / e + n_sqrt ((#2 * Nm / e) ** 2 - #1)).
  Definition m036_hypb_init (Nm e tol : T) : loop_state :=
    (0%Z, m036_hypb_guess Nm e, m036_hypb_guess Nm e + #2 * tol).
  Definition m036_hypb_run (Nm e tol : T) (max_iter : Z) : option loop_state :=
    while_fuel (loop_fuel max_iter) (hypb_cond Nm e tol max_iter) (hypb_body Nm e)
      (m036_hypb_init Nm e tol).
  Definition m036_solve_kepler_hypb (Nm e tol : T) (max_iter : Z) : T :=
    match m036_hypb_run Nm e tol max_iter with
    | Some (_, H, _) => H
    | None => m036_hypb_guess Nm e
    end.

  (* m037: uni_cond *)
  Definition m037_uni_cond (deltat alpha r0 sigma0 mu tol : T) (max_iter : Z)
    (val : loop_state) : bool :=
    let '(iter_count, chi, _) := val in
    andb (exceeds (kepler_equ_uni chi alpha r0 sigma0 #0 mu) tol)
         (Z.ltb iter_count max_iter).
  Definition m037_uni_run (deltat alpha r0 sigma0 mu tol : T) (max_iter : Z)
    : option loop_state :=
    while_fuel (loop_fuel max_iter)
      (m037_uni_cond deltat alpha r0 sigma0 mu tol max_iter)
      (uni_body deltat alpha r0 sigma0 mu)
      (uni_init deltat alpha mu tol).
  Definition m037_solve_kepler_uni (deltat alpha r0 sigma0 mu tol : T) (max_iter : Z) : T :=
    match m037_uni_run deltat alpha r0 sigma0 mu tol max_iter with
    | Some (_, chi, _) => chi
    | None => uni_guess deltat alpha mu
    end.

  (* m038: uni_body *)
  Definition m038_uni_body (deltat alpha r0 sigma0 mu : T) (val : loop_state) : loop_state :=
    let '(iter_count, chi, _) := val in
    let chi_new := chi - kepler_equ_uni chi alpha r0 sigma0 deltat mu
                           / dchi chi alpha r0 sigma0 in
    ((iter_count)%Z, chi_new, chi).
  Definition m038_uni_run (deltat alpha r0 sigma0 mu tol : T) (max_iter : Z)
    : option loop_state :=
    while_fuel (loop_fuel max_iter)
      (uni_cond deltat alpha r0 sigma0 mu tol max_iter)
      (m038_uni_body deltat alpha r0 sigma0 mu)
      (uni_init deltat alpha mu tol).
  Definition m038_solve_kepler_uni (deltat alpha r0 sigma0 mu tol : T) (max_iter : Z) : T :=
    match m038_uni_run deltat alpha r0 sigma0 mu tol max_iter with
    | Some (_, chi, _) => chi
    | None => uni_guess deltat alpha mu
    end.

  (* m039: uni_guess *)
  Definition m039_uni_guess (deltat alpha mu : T) : T :=
    n_sqrt mu * alpha * deltat.
  Definition m039_uni_init (deltat alpha mu tol : T) : loop_state :=
    (0%Z, m039_uni_guess deltat alpha mu, m039_uni_guess deltat alpha mu + #2 * tol).
  Definition m039_uni_run (deltat alpha r0 sigma0 mu tol : T) (max_iter : Z)
    : option loop_state :=
    while_fuel (loop_fuel max_iter)
      (uni_cond deltat alpha r0 sigma0 mu tol max_iter)
      (uni_body deltat alpha r0 sigma0 mu)
      (m039_uni_init deltat alpha mu tol).
  Definition m039_solve_kepler_uni (deltat alpha r0 sigma0 mu tol : T) (max_iter : Z) : T :=
    match m039_uni_run deltat alpha r0 sigma0 mu tol max_iter with
    | Some (_, chi, _) => chi
    | None => m039_uni_guess deltat alpha mu
    end.

  (* m040: solve_kepler_uni *)
  Definition m040_solve_kepler_uni (deltat alpha r0 sigma0 mu tol : T) (max_iter : Z) : T :=
    match uni_run deltat alpha r0 sigma0 mu tol max_iter with
    | Some (_, _, chi) => chi
    | None => uni_guess deltat alpha mu
    end.

  (* m041: default_tol; m042: uni_max_iter *)
  Definition m041_default_tol : T := n_dec 1 1000.
  Definition m042_uni_max_iter : Z := 5.
End Wrong.

Lemma exit_bool {T} (eqb : T -> T -> bool) (sol : T) (xs : nat -> T) (bad : nat -> bool) (n : nat) :
  (forall x, eqb x x = true) ->
  (exists k : nat, (k <= n)%nat /\ sol = xs k /\ (forall j, (j < k)%nat -> bad j = true) /\ (k = n \/ bad k = false)) ->
  existsb (fun k => if eqb sol (xs k) then forallb bad (seq 0 k) && (Nat.eqb k n || negb (bad k)) else false) (seq 0 (S n)) = true.
Proof.
  intros R (k & L & E & A & B). apply existsb_exists. exists k. split; [apply in_seq; lia|].
  rewrite E, R. apply andb_true_iff. split.
  - apply forallb_forall. intros j J. apply in_seq in J. apply A. lia.
  - destruct B as [->| ->]; [now rewrite Nat.eqb_refl|apply orb_true_r].
Qed.

(** The same in one pass, for a test that looks at the current iterate only. *)
Fixpoint scan {T} (eqb : T -> T -> bool) (sol : T) (step : T -> T) (bad : T -> bool) (n : nat) (x : T) : bool :=
  if bad x
  then match n with O => eqb sol x | S n' => scan eqb sol step bad n' (step x) end
  else eqb sol x.
Lemma scan_true {T} (eqb : T -> T -> bool) (sol : T) (step : T -> T) (bad : T -> bool) (n : nat) (g : T) :
  (forall x, eqb x x = true) ->
  (exists k : nat, (k <= n)%nat /\ sol = iterate step k g /\
     (forall j, (j < k)%nat -> bad (iterate step j g) = true) /\ (k = n \/ bad (iterate step k g) = false)) ->
  scan eqb sol step bad n g = true.
Proof.
  intros R (k & L & E & A & B). revert k g L E A B. induction n as [|n IH]; intros k g L E A B.
  - assert (k = O) by lia. subst k. cbn in *. rewrite E, R. now destruct (bad g).
  - cbn [scan]. destruct k as [|k].
    + destruct B as [B|B]; [discriminate|]. cbn in *. rewrite B, E. apply R.
    + assert (A0 : bad g = true) by (apply (A O); lia). rewrite A0. apply (IH k); [lia| | |].
      * rewrite iterate_S_in. exact E.
      * intros j J. rewrite iterate_S_in. apply (A (S j)). lia.
      * destruct B as [B|B]; [left; lia|right; rewrite iterate_S_in; exact B].
Qed.

(** the same float (zeros of either sign differ, NaN is equal to itself) *)
Definition same (x y : b32) : bool :=
  match x, y with
  | B754_zero s, B754_zero s' => Bool.eqb s s'
  | B754_infinity s, B754_infinity s' => Bool.eqb s s'
  | B754_nan, B754_nan => true
  | B754_finite s m e _, B754_finite s' m' e' _ => Bool.eqb s s' && Pos.eqb m m' && Z.eqb e e'
  | _, _ => false
  end.
Lemma same_refl x : same x x = true.
Proof. destruct x; cbn; rewrite ?Bool.eqb_reflx, ?Pos.eqb_refl, ?Z.eqb_refl; reflexivity. Qed.

Definition N1 : Num b32 := Num_B32 ref_libm.
Definition b1 : b32 := b32_Z 1.
Definition t6 : b32 := b32_dec 1 1000000.


(** [exit_bool] for the three shapes of the exit theorems *)
Ltac no_exit_elps H :=
  match type of H with exists k, _ /\ _ = @?x k /\ (forall j, _ -> @?b j = true) /\ _ =>
    apply (exit_bool same _ x b _ same_refl) in H; revert H; vm_compute; discriminate end.
Ltac no_exit_hypb H := no_exit_elps H.
Ltac no_exit_uni H := no_exit_elps H.

Lemma m029_C22_elps_exit : ~ (forall (T : Type) (N : Num T) (M e tol : T) (max_iter : Z),
  exists k : nat, (k <= Z.to_nat max_iter)%nat /\
    let guess := M + e * n_sin M + e ** 2 * n_sin (#2 * M) / #2 in
    let step := fun E => E - kepler_equ_elps E e M / dE E e in
    let xs := fun j => iterate step j guess in
    let ys := fun j => match j with O => guess + #2 * tol | S j' => xs j' end in
    m029_solve_kepler_elps M e tol max_iter = xs k /\
    (forall j, (j < k)%nat -> n_gt (n_abs (xs j - ys j)) tol = true) /\
    (k = Z.to_nat max_iter \/ n_gt (n_abs (xs k - ys k)) tol = false))%num.
Proof.
  intro H. specialize (H b32 N1 (b1) (b32_dec 1 2) (t6) 1%Z). cbv zeta in H. no_exit_elps H.
Qed.

Lemma m030_C22_elps_exit : ~ (forall (T : Type) (N : Num T) (M e tol : T) (max_iter : Z),
  exists k : nat, (k <= Z.to_nat max_iter)%nat /\
    let guess := M + e * n_sin M + e ** 2 * n_sin (#2 * M) / #2 in
    let step := fun E => E - kepler_equ_elps E e M / dE E e in
    let xs := fun j => iterate step j guess in
    let ys := fun j => match j with O => guess + #2 * tol | S j' => xs j' end in
    m030_solve_kepler_elps M e tol max_iter = xs k /\
    (forall j, (j < k)%nat -> n_gt (n_abs (xs j - ys j)) tol = true) /\
    (k = Z.to_nat max_iter \/ n_gt (n_abs (xs k - ys k)) tol = false))%num.
Proof.
  intro H. specialize (H b32 N1 (b1) (b32_dec 1 2) (t6) 5%Z). cbv zeta in H. no_exit_elps H.
Qed.

Lemma m031_C22_elps_exit : ~ (forall (T : Type) (N : Num T) (M e tol : T) (max_iter : Z),
  exists k : nat, (k <= Z.to_nat max_iter)%nat /\
    let guess := M + e * n_sin M + e ** 2 * n_sin (#2 * M) / #2 in
    let step := fun E => E - kepler_equ_elps E e M / dE E e in
    let xs := fun j => iterate step j guess in
    let ys := fun j => match j with O => guess + #2 * tol | S j' => xs j' end in
    m031_solve_kepler_elps M e tol max_iter = xs k /\
    (forall j, (j < k)%nat -> n_gt (n_abs (xs j - ys j)) tol = true) /\
    (k = Z.to_nat max_iter \/ n_gt (n_abs (xs k - ys k)) tol = false))%num.
Proof.
  intro H. specialize (H b32 N1 (b1) (b32_dec 1 2) (t6) 1%Z). cbv zeta in H. no_exit_elps H.
Qed.

Lemma m032_C22_elps_exit : ~ (forall (T : Type) (N : Num T) (M e tol : T) (max_iter : Z),
  exists k : nat, (k <= Z.to_nat max_iter)%nat /\
    let guess := M + e * n_sin M + e ** 2 * n_sin (#2 * M) / #2 in
    let step := fun E => E - kepler_equ_elps E e M / dE E e in
    let xs := fun j => iterate step j guess in
    let ys := fun j => match j with O => guess + #2 * tol | S j' => xs j' end in
    m032_solve_kepler_elps M e tol max_iter = xs k /\
    (forall j, (j < k)%nat -> n_gt (n_abs (xs j - ys j)) tol = true) /\
    (k = Z.to_nat max_iter \/ n_gt (n_abs (xs k - ys k)) tol = false))%num.
Proof.
  intro H. specialize (H b32 N1 (b1) (b32_dec 1 2) (t6) 0%Z). cbv zeta in H. no_exit_elps H.
Qed.

Lemma m033_C22_elps_exit : ~ (forall (T : Type) (N : Num T) (M e tol : T) (max_iter : Z),
  exists k : nat, (k <= Z.to_nat max_iter)%nat /\
    let guess := M + e * n_sin M + e ** 2 * n_sin (#2 * M) / #2 in
    let step := fun E => E - kepler_equ_elps E e M / dE E e in
    let xs := fun j => iterate step j guess in
    let ys := fun j => match j with O => guess + #2 * tol | S j' => xs j' end in
    m033_solve_kepler_elps M e tol max_iter = xs k /\
    (forall j, (j < k)%nat -> n_gt (n_abs (xs j - ys j)) tol = true) /\
    (k = Z.to_nat max_iter \/ n_gt (n_abs (xs k - ys k)) tol = false))%num.
Proof.
  intro H. specialize (H b32 N1 (b1) (b32_dec 1 2) (t6) 1%Z). cbv zeta in H. no_exit_elps H.
Qed.

Lemma m034_C22_hypb_exit : ~ (forall (T : Type) (N : Num T) (Nm e tol : T) (max_iter : Z),
  exists k : nat, (k <= Z.to_nat max_iter)%nat /\
    let guess := n_log (#2 * Nm / e + n_sqrt ((#2 * Nm / e) ** 2 + #1)) in
    let step := fun H => H - kepler_equ_hypb H e Nm / dH H e in
    let xs := fun j => iterate step j guess in
    m034_solve_kepler_hypb Nm e tol max_iter = xs k /\
    (forall j, (j < k)%nat -> n_gt (n_abs (kepler_equ_hypb (xs j) e Nm)) tol = true) /\
    (k = Z.to_nat max_iter \/ n_gt (n_abs (kepler_equ_hypb (xs k) e Nm)) tol = false))%num.
Proof.
  intro H. specialize (H b32 N1 (b32_Z 4) (b32_Z 2) (b32_dec 1 10) 5%Z). cbv zeta in H. no_exit_hypb H.
Qed.

Lemma m035_C22_hypb_exit : ~ (forall (T : Type) (N : Num T) (Nm e tol : T) (max_iter : Z),
  exists k : nat, (k <= Z.to_nat max_iter)%nat /\
    let guess := n_log (#2 * Nm / e + n_sqrt ((#2 * Nm / e) ** 2 + #1)) in
    let step := fun H => H - kepler_equ_hypb H e Nm / dH H e in
    let xs := fun j => iterate step j guess in
    m035_solve_kepler_hypb Nm e tol max_iter = xs k /\
    (forall j, (j < k)%nat -> n_gt (n_abs (kepler_equ_hypb (xs j) e Nm)) tol = true) /\
    (k = Z.to_nat max_iter \/ n_gt (n_abs (kepler_equ_hypb (xs k) e Nm)) tol = false))%num.
Proof.
  intro H. specialize (H b32 N1 (b1) (b32_Z 2) (t6) 1%Z). cbv zeta in H. no_exit_hypb H.
Qed.

Lemma m036_C22_hypb_exit : ~ (forall (T : Type) (N : Num T) (Nm e tol : T) (max_iter : Z),
  exists k : nat, (k <= Z.to_nat max_iter)%nat /\
    let guess := n_log (#2 * Nm / e + n_sqrt ((#2 * Nm / e) ** 2 + #1)) in
    let step := fun H => H - kepler_equ_hypb H e Nm / dH H e in
    let xs := fun j => iterate step j guess in
    m036_solve_kepler_hypb Nm e tol max_iter = xs k /\
    (forall j, (j < k)%nat -> n_gt (n_abs (kepler_equ_hypb (xs j) e Nm)) tol = true) /\
    (k = Z.to_nat max_iter \/ n_gt (n_abs (kepler_equ_hypb (xs k) e Nm)) tol = false))%num.
Proof.
  intro H. specialize (H b32 N1 (b32_dec 1 2) (b32_Z 2) (t6) 0%Z). cbv zeta in H. no_exit_hypb H.
Qed.

Lemma m037_C22_uni_exit : ~ (forall (T : Type) (N : Num T) (deltat alpha r0 sigma0 mu tol : T) (max_iter : Z),
  exists k : nat, (k <= Z.to_nat max_iter)%nat /\
    let guess := n_sqrt mu * n_abs alpha * deltat in
    let step := fun chi => chi - kepler_equ_uni chi alpha r0 sigma0 deltat mu / dchi chi alpha r0 sigma0 in
    let xs := fun j => iterate step j guess in
    m037_solve_kepler_uni deltat alpha r0 sigma0 mu tol max_iter = xs k /\
    (forall j, (j < k)%nat -> n_gt (n_abs (kepler_equ_uni (xs j) alpha r0 sigma0 deltat mu)) tol = true) /\
    (k = Z.to_nat max_iter \/
     n_gt (n_abs (kepler_equ_uni (xs k) alpha r0 sigma0 deltat mu)) tol = false))%num.
Proof.
  intro H. specialize (H b32 N1 b1 b1 b1 (b32_dec 1 2) b1 (b32_dec 1 100) 6%Z). cbv zeta in H. no_exit_uni H.
Qed.

Lemma m038_C22_uni_exit : ~ (forall (T : Type) (N : Num T) (deltat alpha r0 sigma0 mu tol : T) (max_iter : Z),
  exists k : nat, (k <= Z.to_nat max_iter)%nat /\
    let guess := n_sqrt mu * n_abs alpha * deltat in
    let step := fun chi => chi - kepler_equ_uni chi alpha r0 sigma0 deltat mu / dchi chi alpha r0 sigma0 in
    let xs := fun j => iterate step j guess in
    m038_solve_kepler_uni deltat alpha r0 sigma0 mu tol max_iter = xs k /\
    (forall j, (j < k)%nat -> n_gt (n_abs (kepler_equ_uni (xs j) alpha r0 sigma0 deltat mu)) tol = true) /\
    (k = Z.to_nat max_iter \/
     n_gt (n_abs (kepler_equ_uni (xs k) alpha r0 sigma0 deltat mu)) tol = false))%num.
Proof.
  intro H. specialize (H b32 N1 b1 b1 b1 (b32_dec 1 2) b1 t6 1%Z). cbv zeta in H. no_exit_uni H.
Qed.

Lemma m039_C22_uni_exit : ~ (forall (T : Type) (N : Num T) (deltat alpha r0 sigma0 mu tol : T) (max_iter : Z),
  exists k : nat, (k <= Z.to_nat max_iter)%nat /\
    let guess := n_sqrt mu * n_abs alpha * deltat in
    let step := fun chi => chi - kepler_equ_uni chi alpha r0 sigma0 deltat mu / dchi chi alpha r0 sigma0 in
    let xs := fun j => iterate step j guess in
    m039_solve_kepler_uni deltat alpha r0 sigma0 mu tol max_iter = xs k /\
    (forall j, (j < k)%nat -> n_gt (n_abs (kepler_equ_uni (xs j) alpha r0 sigma0 deltat mu)) tol = true) /\
    (k = Z.to_nat max_iter \/
     n_gt (n_abs (kepler_equ_uni (xs k) alpha r0 sigma0 deltat mu)) tol = false))%num.
Proof.
  intro H. specialize (H b32 N1 b1 (b32_Z (-1)) b1 (b32_dec 1 2) b1 t6 0%Z). cbv zeta in H. no_exit_uni H.
Qed.

Lemma m040_C22_uni_exit : ~ (forall (T : Type) (N : Num T) (deltat alpha r0 sigma0 mu tol : T) (max_iter : Z),
  exists k : nat, (k <= Z.to_nat max_iter)%nat /\
    let guess := n_sqrt mu * n_abs alpha * deltat in
    let step := fun chi => chi - kepler_equ_uni chi alpha r0 sigma0 deltat mu / dchi chi alpha r0 sigma0 in
    let xs := fun j => iterate step j guess in
    m040_solve_kepler_uni deltat alpha r0 sigma0 mu tol max_iter = xs k /\
    (forall j, (j < k)%nat -> n_gt (n_abs (kepler_equ_uni (xs j) alpha r0 sigma0 deltat mu)) tol = true) /\
    (k = Z.to_nat max_iter \/
     n_gt (n_abs (kepler_equ_uni (xs k) alpha r0 sigma0 deltat mu)) tol = false))%num.
Proof.
  intro H. specialize (H b32 N1 b1 b1 b1 (b32_dec 1 2) b1 t6 1%Z). cbv zeta in H. no_exit_uni H.
Qed.

(** [C21_solver] used to name the defaults and was true of these two as well; the [C22_*_default] theorems were
    added for them. *)
Lemma m041_C22_elps_default : ~ (forall (T : Type) (N : Num T) (M e : T),
  exists k : nat, (k <= 20)%nat /\
    let guess := M + e * n_sin M + e ** 2 * n_sin (#2 * M) / #2 in
    let step := fun E => E - kepler_equ_elps E e M / dE E e in
    let xs := fun j => iterate step j guess in
    let ys := fun j => match j with O => guess + #2 * n_dec 1 1000000 | S j' => xs j' end in
    solve_kepler_elps M e m041_default_tol elps_max_iter = xs k /\
    (forall j, (j < k)%nat -> n_gt (n_abs (xs j - ys j)) (n_dec 1 1000000) = true) /\
    (k = 20%nat \/ n_gt (n_abs (xs k - ys k)) (n_dec 1 1000000) = false))%num.
Proof.
  intro H. specialize (H b32 N1 b1 (b32_dec 1 2)). cbv zeta in H. no_exit_elps H.
Qed.

Lemma m042_C22_uni_default : ~ (forall (T : Type) (N : Num T) (deltat alpha r0 sigma0 mu : T),
  exists k : nat, (k <= 50)%nat /\
    let guess := n_sqrt mu * n_abs alpha * deltat in
    let step := fun chi => chi - kepler_equ_uni chi alpha r0 sigma0 deltat mu / dchi chi alpha r0 sigma0 in
    let xs := fun j => iterate step j guess in
    solve_kepler_uni deltat alpha r0 sigma0 mu default_tol m042_uni_max_iter = xs k /\
    (forall j, (j < k)%nat -> n_gt (n_abs (kepler_equ_uni (xs j) alpha r0 sigma0 deltat mu)) (n_dec 1 1000000) = true) /\
    (k = 50%nat \/
     n_gt (n_abs (kepler_equ_uni (xs k) alpha r0 sigma0 deltat mu)) (n_dec 1 1000000) = false))%num.
Proof.
  intro H. specialize (H b32 N1 (b32_Z 20) (b32_dec 3 2) b1 (b32_dec 1 4) b1). cbv zeta in H.
  apply (scan_true same _ _ (fun x => @n_gt _ N1 (@n_abs _ N1 (@kepler_equ_uni _ N1 x (b32_dec 3 2) b1 (b32_dec 1 4) (b32_Z 20) b1)) _) _ _ same_refl) in H.
  revert H. vm_compute. discriminate.
Qed.
