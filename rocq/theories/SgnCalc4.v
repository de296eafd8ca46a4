(** * SgnCalc4: the laws of [SgnCalc] applied to the elliptic Kepler solver. *)
From Coq Require Import ZArith Bool List Lia.
From Verif Require Import Num KepEqu SgnCalc SgnCalc2.
Local Open Scope num_scope.

Section Elps.
  Context {T : Type} {N : Num T} (zero : T -> Prop) (Lw : sgn_laws zero).
  Notation Rel := (Rl zero).
  Context (Ys : forall a a', Rel true a a' -> Rel true (n_sin a) (n_sin a')) (Yc : forall a a', Rel true a a' -> n_cos a' = n_cos a).
  Let FL := Rfl zero.
  Context (M M' e : T) (HM : Rel true M M').

  Lemma guess_odd : Rel true (elps_guess M e) (elps_guess M' e).
  Proof using Lw Ys Yc HM.
    unfold elps_guess. apply (Radd zero Lw); [apply (Radd zero Lw); [exact HM|]|].
    - apply (Rmul zero Lw false true); [apply FL|now apply Ys|reflexivity].
    - apply (Rdiv zero Lw); [|reflexivity]. apply (Rmul zero Lw false true); [apply FL| |reflexivity].
      apply Ys. apply (Rmul zero Lw false true); [apply FL|exact HM|reflexivity].
  Qed.
  Definition pair_odd (p q : Z * T * T) : Prop :=
    fst (fst p) = fst (fst q) /\ Rel true (snd (fst p)) (snd (fst q)).
  Definition trip_odd (p q : Z * T * T) : Prop := pair_odd p q /\ Rel true (snd p) (snd q).
  Lemma body_odd (p q : Z * T * T) : pair_odd p q -> trip_odd (elps_body M e p) (elps_body M' e q).
  Proof using Lw Ys Yc HM.
    destruct p as [[i a] b], q as [[j a'] b']. intros [E R]. cbn [fst snd] in E, R. subst j. unfold elps_body.
    assert (D : dE a' e = dE a e) by (unfold dE; now rewrite (Yc _ _ R)).
    split; [|exact R]. split; [reflexivity|]. cbn [fst snd]. apply (Rsub zero Lw); [exact R|]. apply (Rdiv zero Lw); [|exact D].
    apply (Rsub zero Lw); [|exact HM]. apply (Rsub zero Lw); [exact R|].
    apply (Rmul zero Lw false true); [apply FL|now apply Ys|reflexivity].
  Qed.
  Lemma cond_odd (tol : T) (n : Z) (p q : Z * T * T) : trip_odd p q -> elps_cond tol n q = elps_cond tol n p.
  Proof using Lw.
    destruct p as [[i a] b], q as [[j a'] b']. intros [[E R] R']. cbn [fst snd] in E, R, R'. subst j. unfold elps_cond. f_equal.
    unfold exceeds, n_gt. now rewrite (sl_abs _ Lw true _ _ (Rsub zero Lw _ _ _ _ _ R R')).
  Qed.
  Lemma run_odd (tol : T) (n : Z) (k : nat) : forall p q, pair_odd p q -> elps_cond tol n q = elps_cond tol n p ->
    match while_fuel k (elps_cond tol n) (elps_body M e) p, while_fuel k (elps_cond tol n) (elps_body M' e) q with
    | Some a, Some b => pair_odd a b | None, None => True | _, _ => False end.
  Proof using Lw Ys Yc HM.
    induction k as [|k IH]; intros p q H C; [exact I|]. cbn [while_fuel]. rewrite C. destruct (elps_cond tol n p); [|exact H].
    pose proof (body_odd p q H) as B. apply IH; [exact (proj1 B)|]. now apply cond_odd.
  Qed.
  Lemma solve_odd (tol : T) (n : Z) : elps_cond tol n (elps_init M' e tol) = elps_cond tol n (elps_init M e tol) ->
    Rel true (solve_kepler_elps M e tol n) (solve_kepler_elps M' e tol n).
  Proof using Lw Ys Yc HM.
    intros C. unfold solve_kepler_elps, elps_run.
    pose proof (run_odd tol n (loop_fuel n) (elps_init M e tol) (elps_init M' e tol) (conj eq_refl guess_odd) C) as R.
    destruct (while_fuel _ _ (elps_body M e) _) as [[[i a] b]|], (while_fuel _ _ (elps_body M' e) _) as [[[j a'] b']|]; try contradiction.
    - exact (proj2 R).
    - exact guess_odd.
  Qed.
End Elps.
