(** * LoopFacts: while loops, for every arithmetic (proofs for C21, C22) *)
From Coq Require Import ZArith List Lia Bool.
Import ListNotations.
From Verif Require Import Num Spec Uniformulas OrbIntegrals KepEqu StateTrans PropKepler.

Lemma iterate_S_in {A} (f : A -> A) k x : iterate f k (f x) = f (iterate f k x).
Proof. induction k; simpl; congruence. Qed.

(** ** Fuel and the big-step relation *)
Lemma while_fuel_While {S} (c : S -> bool) b n s s' : while_fuel n c b s = Some s' -> While c b s s'.
Proof.
  revert s. induction n as [|n IH]; simpl; intros s H; [discriminate|].
  destruct (c s) eqn:E.
  - apply While_step; auto.
  - injection H as <-. now apply While_stop.
Qed.
Lemma While_det {S} (c : S -> bool) b s s1 s2 : While c b s s1 -> While c b s s2 -> s1 = s2.
Proof.
  intros H. revert s2. induction H as [s E|s s' E H IH]; intros s2 H2; inversion H2; subst; auto; congruence.
Qed.

(** ** Loops with an iteration counter *)
Section Counter.
  Context {T : Type} {N : Num T}.
  Variable test : T -> T -> bool.      (* x, x_prev: continue? *)
  Variable newton : T -> T.
  Variable max_iter : Z.
  Let cond (s : loop_state (T := T)) : bool :=
    let '(i, x, y) := s in andb (test x y) (Z.ltb i max_iter).
  Let body (s : loop_state (T := T)) : loop_state :=
    let '(i, x, y) := s in ((i + 1)%Z, newton x, x).

  Lemma counter_loop n i x y : (0 <= i)%Z -> (Z.to_nat (max_iter - i) < n)%nat ->
    exists k, (k <= Z.to_nat (max_iter - i))%nat /\
      let xs j := iterate newton j x in
      let ys j := match j with O => y | S j' => xs j' end in
      while_fuel n cond body (i, x, y) = Some ((i + Z.of_nat k)%Z, xs k, ys k) /\
      (forall j, (j < k)%nat -> test (xs j) (ys j) = true) /\
      (k = Z.to_nat (max_iter - i) \/ test (xs k) (ys k) = false).
  Proof.
    revert i x y. induction n as [|n IH]; intros i x y Hi Hn; [lia|].
    cbn [while_fuel]. destruct (cond (i, x, y)) eqn:E.
    - unfold cond in E. apply andb_true_iff in E. destruct E as [Et El]. apply Z.ltb_lt in El.
      destruct (IH (i + 1)%Z (newton x) x) as [k [Hk [Hr [Ht He]]]]; [lia|lia|].
      exists (S k). split; [lia|]. cbv zeta in *. split; [|split].
      + unfold body at 2. cbn beta iota. rewrite Hr. f_equal. f_equal; [f_equal; [lia|]|].
        * apply iterate_S_in.
        * destruct k; auto. cbn [iterate]. apply iterate_S_in.
      + intros j Hj. destruct j as [|j]; [exact Et|].
        specialize (Ht j ltac:(lia)). rewrite iterate_S_in in Ht. cbn [iterate].
        destruct j; [exact Ht|]. rewrite iterate_S_in in Ht. exact Ht.
      + destruct He as [He|He].
        * left. lia.
        * right. rewrite iterate_S_in in He. destruct k; [exact He|].
          rewrite iterate_S_in in He. exact He.
    - exists 0%nat. split; [lia|]. cbv zeta. split; [|split].
      + cbn [iterate]. do 3 f_equal. lia.
      + intros j Hj. lia.
      + unfold cond in E. apply andb_false_iff in E. destruct E as [E|E]; [now right|].
        left. apply Z.ltb_ge in E. lia.
  Qed.
End Counter.

Section Solvers.
  Context {T : Type} {N : Num T}.
  Local Open Scope num_scope.

  (** One Newton step of each solver. *)
  Definition elps_newton (M e : T) (E : T) : T := E - kepler_equ_elps E e M / dE E e.
  Definition hypb_newton (Nm e : T) (H : T) : T := H - kepler_equ_hypb H e Nm / dH H e.
  Definition uni_newton (deltat alpha r0 sigma0 mu : T) (chi : T) : T :=
    chi - kepler_equ_uni chi alpha r0 sigma0 deltat mu / dchi chi alpha r0 sigma0.

  Lemma elps_run_char M e tol mi :
    exists k, (k <= Z.to_nat mi)%nat /\
      let xs j := iterate (elps_newton M e) j (elps_guess M e) in
      let ys j := match j with O => elps_guess M e + #2 * tol | S j' => xs j' end in
      elps_run M e tol mi = Some (Z.of_nat k, xs k, ys k) /\
      (forall j, (j < k)%nat -> exceeds (xs j - ys j) tol = true) /\
      (k = Z.to_nat mi \/ exceeds (xs k - ys k) tol = false).
  Proof.
    pose proof (counter_loop (fun x y => exceeds (x - y) tol) (elps_newton M e) mi
      (loop_fuel mi) 0%Z (elps_guess M e) (elps_guess M e + #2 * tol) ltac:(lia)) as H.
    rewrite Z.sub_0_r in H. specialize (H ltac:(unfold loop_fuel; lia)).
    exact H.
  Qed.
  Lemma hypb_run_char Nm e tol mi :
    exists k, (k <= Z.to_nat mi)%nat /\
      let xs j := iterate (hypb_newton Nm e) j (hypb_guess Nm e) in
      let ys j := match j with O => hypb_guess Nm e + #2 * tol | S j' => xs j' end in
      hypb_run Nm e tol mi = Some (Z.of_nat k, xs k, ys k) /\
      (forall j, (j < k)%nat -> exceeds (kepler_equ_hypb (xs j) e Nm) tol = true) /\
      (k = Z.to_nat mi \/ exceeds (kepler_equ_hypb (xs k) e Nm) tol = false).
  Proof.
    pose proof (counter_loop (fun x y => exceeds (kepler_equ_hypb x e Nm) tol) (hypb_newton Nm e) mi
      (loop_fuel mi) 0%Z (hypb_guess Nm e) (hypb_guess Nm e + #2 * tol) ltac:(lia)) as H.
    rewrite Z.sub_0_r in H. specialize (H ltac:(unfold loop_fuel; lia)).
    exact H.
  Qed.
  Lemma uni_run_char t al r0 s0 mu tol mi :
    exists k, (k <= Z.to_nat mi)%nat /\
      let xs j := iterate (uni_newton t al r0 s0 mu) j (uni_guess t al mu) in
      let ys j := match j with O => uni_guess t al mu + #2 * tol | S j' => xs j' end in
      uni_run t al r0 s0 mu tol mi = Some (Z.of_nat k, xs k, ys k) /\
      (forall j, (j < k)%nat -> exceeds (kepler_equ_uni (xs j) al r0 s0 t mu) tol = true) /\
      (k = Z.to_nat mi \/ exceeds (kepler_equ_uni (xs k) al r0 s0 t mu) tol = false).
  Proof.
    pose proof (counter_loop (fun x y => exceeds (kepler_equ_uni x al r0 s0 t mu) tol)
      (uni_newton t al r0 s0 mu) mi
      (loop_fuel mi) 0%Z (uni_guess t al mu) (uni_guess t al mu + #2 * tol) ltac:(lia)) as H.
    rewrite Z.sub_0_r in H. specialize (H ltac:(unfold loop_fuel; lia)).
    exact H.
  Qed.

  (** The fuel bounded model returns what the loop returns. *)
  Lemma elps_while M e tol mi :
    exists i prev, While (elps_cond tol mi) (elps_body M e) (elps_init M e tol)
      (i, solve_kepler_elps M e tol mi, prev).
  Proof.
    destruct (elps_run_char M e tol mi) as [k [_ [H _]]]. cbv zeta in H.
    unfold solve_kepler_elps. rewrite H.
    do 2 eexists. eapply while_fuel_While. exact H.
  Qed.
  Lemma hypb_while Nm e tol mi :
    exists i prev, While (hypb_cond Nm e tol mi) (hypb_body Nm e) (hypb_init Nm e tol)
      (i, solve_kepler_hypb Nm e tol mi, prev).
  Proof.
    destruct (hypb_run_char Nm e tol mi) as [k [_ [H _]]]. cbv zeta in H.
    unfold solve_kepler_hypb. rewrite H.
    do 2 eexists. eapply while_fuel_While. exact H.
  Qed.
  Lemma uni_while t al r0 s0 mu tol mi :
    exists i prev, While (uni_cond t al r0 s0 mu tol mi) (uni_body t al r0 s0 mu) (uni_init t al mu tol)
      (i, solve_kepler_uni t al r0 s0 mu tol mi, prev).
  Proof.
    destruct (uni_run_char t al r0 s0 mu tol mi) as [k [_ [H _]]]. cbv zeta in H.
    unfold solve_kepler_uni. rewrite H.
    do 2 eexists. eapply while_fuel_While. exact H.
  Qed.

  Lemma elps_char M e tol mi :
    exists k, (k <= Z.to_nat mi)%nat /\
      let xs j := iterate (elps_newton M e) j (elps_guess M e) in
      let ys j := match j with O => elps_guess M e + #2 * tol | S j' => xs j' end in
      solve_kepler_elps M e tol mi = xs k /\
      (forall j, (j < k)%nat -> exceeds (xs j - ys j) tol = true) /\
      (k = Z.to_nat mi \/ exceeds (xs k - ys k) tol = false).
  Proof.
    destruct (elps_run_char M e tol mi) as [k [Hk [H Ht]]]. exists k. split; auto.
    cbv zeta in *. split; auto. unfold solve_kepler_elps. now rewrite H.
  Qed.
  Lemma hypb_char Nm e tol mi :
    exists k, (k <= Z.to_nat mi)%nat /\
      let xs j := iterate (hypb_newton Nm e) j (hypb_guess Nm e) in
      solve_kepler_hypb Nm e tol mi = xs k /\
      (forall j, (j < k)%nat -> exceeds (kepler_equ_hypb (xs j) e Nm) tol = true) /\
      (k = Z.to_nat mi \/ exceeds (kepler_equ_hypb (xs k) e Nm) tol = false).
  Proof.
    destruct (hypb_run_char Nm e tol mi) as [k [Hk [H Ht]]]. exists k. split; auto.
    cbv zeta in *. split; auto. unfold solve_kepler_hypb. now rewrite H.
  Qed.
  Lemma uni_char t al r0 s0 mu tol mi :
    exists k, (k <= Z.to_nat mi)%nat /\
      let xs j := iterate (uni_newton t al r0 s0 mu) j (uni_guess t al mu) in
      solve_kepler_uni t al r0 s0 mu tol mi = xs k /\
      (forall j, (j < k)%nat -> exceeds (kepler_equ_uni (xs j) al r0 s0 t mu) tol = true) /\
      (k = Z.to_nat mi \/ exceeds (kepler_equ_uni (xs k) al r0 s0 t mu) tol = false).
  Proof.
    destruct (uni_run_char t al r0 s0 mu tol mi) as [k [Hk [H Ht]]]. exists k. split; auto.
    cbv zeta in *. split; auto. unfold solve_kepler_uni. now rewrite H.
  Qed.
End Solvers.

(** ** Batched loops *)
Lemma vwhile_map {S} (c : S -> bool) b n ss rs :
  Forall2 (fun s s' => while_fuel n c b s = Some s') ss rs ->
  (0 < n)%nat ->
  vwhile_fuel n c b ss = Some rs.
Proof.
  revert ss rs. induction n as [|n IH]; intros ss rs H Hn; [lia|].
  cbn [vwhile_fuel]. destruct (existsb c ss) eqn:E.
  - apply existsb_exists in E. destruct E as [s1 [Hin Hc]].
    assert (Hn' : (0 < n)%nat).
    { destruct n; [|lia]. exfalso.
      clear IH Hn. induction H as [|s s' ss rs Hs H IH2]; [destruct Hin|].
      destruct Hin as [->|Hin].
      - cbn in Hs. rewrite Hc in Hs. discriminate.
      - auto. }
    apply IH; auto. clear IH Hin Hc Hn.
    induction H as [|s s' ss rs Hs H IH2]; constructor; auto.
    cbn [while_fuel] in Hs. destruct (c s) eqn:Ec; auto.
    injection Hs as <-. destruct n; [lia|]. cbn. now rewrite Ec.
  - f_equal. induction H as [|s s' ss rs Hs H IH2]; auto.
    cbn [existsb] in E. apply orb_false_iff in E. destruct E as [Ec E].
    cbn in Hs. rewrite Ec in Hs. injection Hs as <-. f_equal; auto.
Qed.

Section Batch.
  Context {T : Type} {N : Num T}.

  Lemma lane_fuel n al r0 s0 mu t s s' :
    while_fuel n (uni_cond t al r0 s0 mu default_tol uni_max_iter) (uni_body t al r0 s0 mu) s = Some s' ->
    while_fuel n (lane_cond al r0 s0 mu) (lane_body al r0 s0 mu) (t, s) = Some (t, s').
  Proof.
    revert s. induction n as [|n IH]; intros s H; [discriminate|].
    cbn [while_fuel] in *.
    change (lane_cond al r0 s0 mu (t, s)) with (uni_cond t al r0 s0 mu default_tol uni_max_iter s).
    change (lane_body al r0 s0 mu (t, s)) with (t, uni_body t al r0 s0 mu s).
    destruct (uni_cond t al r0 s0 mu default_tol uni_max_iter s); auto. now injection H as ->.
  Qed.

  Lemma vmap_solve_eq ts al r0 s0 mu :
    vmap_solve_kepler_uni ts al r0 s0 mu
    = map (fun t => solve_kepler_uni t al r0 s0 mu default_tol uni_max_iter) ts.
  Proof.
    unfold vmap_solve_kepler_uni.
    pose (f := fun t => match uni_run t al r0 s0 mu default_tol uni_max_iter with
                        | Some s => (t, s) | None => (t, uni_init t al mu default_tol) end).
    rewrite (vwhile_map _ _ _ _ (map f ts)).
    - rewrite map_map. apply map_ext. intros t. unfold f, solve_kepler_uni.
      destruct (uni_run_char t al r0 s0 mu default_tol uni_max_iter) as [k [_ [H _]]]. cbv zeta in H.
      rewrite H. reflexivity.
    - induction ts as [|t ts IH]; constructor; auto.
      unfold f, lane_init.
      destruct (uni_run_char t al r0 s0 mu default_tol uni_max_iter) as [k [_ [H _]]]. cbv zeta in H.
      rewrite H. apply lane_fuel. exact H.
    - unfold loop_fuel. lia.
  Qed.

  (** One row of [kepler]. *)
  Definition kepler1 (t : T) (r0_vec v0_vec : V3 T) (mu : T) : V3 T * V3 T :=
    let r0 := vector_norm r0_vec in
    let alpha := alpha_of r0 (vector_norm v0_vec) mu in
    let sigma0 := sigma_fn r0_vec v0_vec mu in
    state_at_chi (solve_kepler_uni t alpha r0 sigma0 mu default_tol uni_max_iter)
      alpha sigma0 r0 r0_vec v0_vec mu.

  Lemma kepler_map ts r0 v0 mu : kepler ts r0 v0 mu = map (fun t => kepler1 t r0 v0 mu) ts.
  Proof. unfold kepler. rewrite vmap_solve_eq, map_map. reflexivity. Qed.

  Lemma kepler_rows ts r0 v0 mu :
    kepler ts r0 v0 mu = flat_map (fun t => kepler [t] r0 v0 mu) ts /\
    length (kepler ts r0 v0 mu) = length ts.
  Proof.
    split; [|now rewrite kepler_map, map_length].
    rewrite kepler_map. induction ts as [|t ts IH]; auto.
    cbn [map flat_map]. rewrite IH, kepler_map. reflexivity.
  Qed.
  Lemma kepler_nth ts r0 v0 mu i t : nth_error ts i = Some t ->
    nth_error (kepler ts r0 v0 mu) i = nth_error (kepler [t] r0 v0 mu) 0.
  Proof.
    intros H. rewrite !kepler_map. cbn. now rewrite nth_error_map, H.
  Qed.
End Batch.
