(** * UFacts: the six [ufunc]s of the model are the universal functions *)
From Coq Require Import Reals Lra Lia Psatz.
From Coquelicot Require Import Coquelicot.
From Verif Require Import Num NumR Spec RLib Uniformulas SeriesU.
Local Open Scope R_scope.

Lemma U_alpha0 n chi : U n chi 0 = chi ^ n / INR (fact n).
Proof. unfold U. rewrite Rmult_0_l, St_0. reflexivity. Qed.

Lemma pos_sqrt_sq alpha chi : 0 < alpha -> (sqrt alpha * chi) ^ 2 = alpha * chi ^ 2.
Proof.
  intros H. rewrite Rpow_mult_distr. f_equal. simpl. rewrite Rmult_1_r. apply sqrt_sqrt; lra.
Qed.
Lemma neg_sqrt_sq alpha chi : alpha < 0 -> - (sqrt (- alpha) * chi) ^ 2 = alpha * chi ^ 2.
Proof. intros H. rewrite pos_sqrt_sq by lra. ring. Qed.

Lemma U0_pos chi alpha : 0 < alpha -> U 0 chi alpha = cos (sqrt alpha * chi).
Proof. intros H. rewrite cos_St, pos_sqrt_sq by auto. unfold U. simpl pow. ring. Qed.
Lemma U0_neg chi alpha : alpha < 0 -> U 0 chi alpha = cosh (sqrt (- alpha) * chi).
Proof. intros H. rewrite cosh_St, neg_sqrt_sq by auto. unfold U. simpl pow. ring. Qed.
Lemma U1_pos chi alpha : 0 < alpha -> U 1 chi alpha = sin (sqrt alpha * chi) / sqrt alpha.
Proof.
  intros H. rewrite sin_St, pos_sqrt_sq by auto. unfold U. simpl (chi ^ 1). field.
  now apply sqrt_pos_neq.
Qed.
Lemma U1_neg chi alpha : alpha < 0 -> U 1 chi alpha = sinh (sqrt (- alpha) * chi) / sqrt (- alpha).
Proof.
  intros H. rewrite sinh_St, neg_sqrt_sq by auto. unfold U. simpl (chi ^ 1). field.
  apply sqrt_pos_neq; lra.
Qed.

Lemma U_next n chi alpha : alpha <> 0 ->
  U (n + 2) chi alpha = (chi ^ n / INR (fact n) - U n chi alpha) / alpha.
Proof. intros H. rewrite <- (U_rec n chi alpha). field. exact H. Qed.

Ltac nz := repeat split; first [assumption | lra | apply sqrt_pos_neq; lra].

Ltac branches alpha :=
  unnum; unfold ltb; destruct (Rlt_dec 0 alpha) as [Hp|Hp];
  [|destruct (Rlt_dec alpha 0) as [Hn|Hn]; [|assert (E0 : alpha = 0) by lra; subst alpha]].

Lemma ufunc0_U chi alpha : ufunc0 chi alpha = U 0 chi alpha.
Proof.
  unfold ufunc0. branches alpha.
  - now rewrite U0_pos.
  - now rewrite U0_neg.
  - rewrite U_alpha0. simpl. field.
Qed.
Lemma ufunc1_U chi alpha : ufunc1 chi alpha = U 1 chi alpha.
Proof.
  unfold ufunc1. branches alpha.
  - now rewrite U1_pos.
  - now rewrite U1_neg.
  - rewrite U_alpha0. simpl. field.
Qed.
Lemma ufunc2_U chi alpha : ufunc2 chi alpha = U 2 chi alpha.
Proof.
  unfold ufunc2. branches alpha.
  - change 2%nat with (0 + 2)%nat. rewrite U_next, U0_pos by lra. simpl. field. lra.
  - change 2%nat with (0 + 2)%nat. rewrite U_next, U0_neg by lra. simpl. field. lra.
  - rewrite U_alpha0. simpl. field.
Qed.
Lemma ufunc3_U chi alpha : ufunc3 chi alpha = U 3 chi alpha.
Proof.
  unfold ufunc3. branches alpha.
  - change 3%nat with (1 + 2)%nat. rewrite U_next, U1_pos by lra. simpl. field.
    nz.
  - change 3%nat with (1 + 2)%nat. rewrite U_next, U1_neg by lra. simpl. field.
    nz.
  - rewrite U_alpha0. simpl. field.
Qed.
Lemma ufunc4_U chi alpha : ufunc4 chi alpha = U 4 chi alpha.
Proof.
  unfold ufunc4. branches alpha.
  - change 4%nat with (0 + 2 + 2)%nat. rewrite !U_next, U0_pos by lra. simpl. field. lra.
  - change 4%nat with (0 + 2 + 2)%nat. rewrite !U_next, U0_neg by lra. simpl. field. lra.
  - rewrite U_alpha0. simpl. field.
Qed.
Lemma ufunc5_U chi alpha : ufunc5 chi alpha = U 5 chi alpha.
Proof.
  unfold ufunc5. branches alpha.
  - change 5%nat with (1 + 2 + 2)%nat. rewrite !U_next, U1_pos by lra. simpl.
    pose proof (sqrt_sqrt alpha ltac:(lra)) as Hs. pose proof (sqrt_pos_neq alpha Hp) as Hz.
    set (s := sqrt alpha) in *. set (x := sin (s * chi)). rewrite <- Hs. field. exact Hz.
  - change 5%nat with (1 + 2 + 2)%nat. rewrite !U_next, U1_neg by lra. simpl.
    pose proof (sqrt_sqrt (- alpha) ltac:(lra)) as Hs. pose proof (sqrt_pos_neq (- alpha) ltac:(lra)) as Hz.
    set (s := sqrt (- alpha)) in *. set (x := sinh (s * chi)).
    assert (Ha : alpha = - (s * s)) by lra. rewrite Ha. field. exact Hz.
  - rewrite U_alpha0. simpl. field.
Qed.

(** ** Identities *)
Lemma U0_eq chi alpha : U 0 chi alpha = 1 - alpha * U 2 chi alpha.
Proof. pose proof (U_rec 0 chi alpha) as H. simpl in H. lra. Qed.
Lemma U1_eq chi alpha : U 1 chi alpha = chi - alpha * U 3 chi alpha.
Proof. pose proof (U_rec 1 chi alpha) as H. simpl in H. lra. Qed.
Lemma U2_eq chi alpha : U 2 chi alpha = chi ^ 2 / 2 - alpha * U 4 chi alpha.
Proof. pose proof (U_rec 2 chi alpha) as H. simpl in *. lra. Qed.
Lemma U3_eq chi alpha : U 3 chi alpha = chi ^ 3 / 6 - alpha * U 5 chi alpha.
Proof. pose proof (U_rec 3 chi alpha) as H. simpl in *. lra. Qed.

Lemma cosh_sinh_1 x : cosh x ^ 2 - sinh x ^ 2 = 1.
Proof.
  unfold cosh, sinh. pose proof (exp_plus x (- x)) as H. rewrite Rplus_opp_r, exp_0 in H.
  replace (((exp x + exp (- x)) / 2) ^ 2 - ((exp x - exp (- x)) / 2) ^ 2) with (exp x * exp (- x)) by field.
  lra.
Qed.
Lemma sin_cos_1 x : cos x ^ 2 + sin x ^ 2 = 1.
Proof. pose proof (sin2_cos2 x). unfold Rsqr in H. lra. Qed.

(** Pythagorean identity. *)
Lemma U_pyth chi alpha : U 0 chi alpha ^ 2 + alpha * U 1 chi alpha ^ 2 = 1.
Proof.
  destruct (Rtotal_order alpha 0) as [H|[H|H]].
  - rewrite U0_neg, U1_neg by auto.
    pose proof (sqrt_sqrt (- alpha) ltac:(lra)) as Hs. pose proof (sqrt_pos_neq (- alpha) ltac:(lra)) as Hz.
    pose proof (cosh_sinh_1 (sqrt (- alpha) * chi)) as P.
    set (s := sqrt (- alpha)) in *. replace alpha with (- (s * s)) by lra.
    rewrite <- P. field. exact Hz.
  - subst. rewrite !U_alpha0. simpl. field.
  - rewrite U0_pos, U1_pos by auto.
    pose proof (sqrt_sqrt alpha ltac:(lra)) as Hs. pose proof (sqrt_pos_neq alpha ltac:(lra)) as Hz.
    pose proof (sin_cos_1 (sqrt alpha * chi)) as P.
    set (s := sqrt alpha) in *. replace alpha with (s * s) by lra.
    rewrite <- P. field. exact Hz.
Qed.

Lemma U_half chi alpha : U 1 chi alpha ^ 2 = U 2 chi alpha * (1 + U 0 chi alpha).
Proof.
  destruct (Req_dec alpha 0) as [->|H].
  - rewrite !U_alpha0. simpl. field.
  - pose proof (U_pyth chi alpha) as P. rewrite (U0_eq chi alpha) in *.
    apply (Rmult_eq_reg_l alpha); [|exact H]. nra.
Qed.

(** Parity. *)
Lemma U_opp n chi alpha : U n (- chi) alpha = (-1) ^ n * U n chi alpha.
Proof.
  unfold U. replace ((- chi) ^ 2) with (chi ^ 2) by ring.
  replace (- chi) with (-1 * chi) by ring. rewrite Rpow_mult_distr. ring.
Qed.
Lemma U_zero n alpha : U n 0 alpha = if Nat.eqb n 0 then 1 else 0.
Proof.
  unfold U. replace (alpha * 0 ^ 2) with 0 by ring. rewrite St_0.
  destruct n as [|n]; [simpl; field|]. rewrite pow_i by lia. simpl (Nat.eqb _ _). cbv iota. ring.
Qed.
Lemma U_scale n k chi alpha : k <> 0 -> U n (k * chi) (alpha / k ^ 2) = k ^ n * U n chi alpha.
Proof.
  intros Hk. unfold U. rewrite Rpow_mult_distr.
  replace (alpha / k ^ 2 * (k * chi) ^ 2) with (alpha * chi ^ 2) by (field; exact Hk). ring.
Qed.

(** Addition formulas. *)
Lemma cosh_plus x y : cosh (x + y) = cosh x * cosh y + sinh x * sinh y.
Proof. unfold cosh, sinh. rewrite Ropp_plus_distr, !exp_plus. field. Qed.
Lemma sinh_plus x y : sinh (x + y) = sinh x * cosh y + cosh x * sinh y.
Proof. unfold cosh, sinh. rewrite Ropp_plus_distr, !exp_plus. field. Qed.

Lemma U0_plus x y a : U 0 (x + y) a = U 0 x a * U 0 y a - a * U 1 x a * U 1 y a.
Proof.
  destruct (Rtotal_order a 0) as [H|[H|H]].
  - rewrite !U0_neg, !U1_neg by auto. rewrite Rmult_plus_distr_l, cosh_plus.
    pose proof (sqrt_sqrt (- a) ltac:(lra)) as Hs. pose proof (sqrt_pos_neq (- a) ltac:(lra)) as Hz.
    set (s := sqrt (- a)) in *. replace a with (- (s * s)) by lra. field. exact Hz.
  - subst. rewrite !U_alpha0. simpl. field.
  - rewrite !U0_pos, !U1_pos by auto. rewrite Rmult_plus_distr_l, cos_plus.
    pose proof (sqrt_sqrt a ltac:(lra)) as Hs. pose proof (sqrt_pos_neq a ltac:(lra)) as Hz.
    set (s := sqrt a) in *. replace a with (s * s) by lra. field. exact Hz.
Qed.
Lemma U1_plus x y a : U 1 (x + y) a = U 1 x a * U 0 y a + U 0 x a * U 1 y a.
Proof.
  destruct (Rtotal_order a 0) as [H|[H|H]].
  - rewrite !U0_neg, !U1_neg by auto. rewrite Rmult_plus_distr_l, sinh_plus.
    pose proof (sqrt_pos_neq (- a) ltac:(lra)) as Hz. field. exact Hz.
  - subst. rewrite !U_alpha0. simpl. field.
  - rewrite !U0_pos, !U1_pos by auto. rewrite Rmult_plus_distr_l, sin_plus.
    pose proof (sqrt_pos_neq a ltac:(lra)) as Hz. field. exact Hz.
Qed.
Lemma U2_plus x y a : U 2 (x + y) a = U 2 x a + U 0 x a * U 2 y a + U 1 x a * U 1 y a.
Proof.
  destruct (Req_dec a 0) as [->|H].
  - rewrite !U_alpha0. simpl. field.
  - pose proof (U0_plus x y a) as P. rewrite (U0_eq (x + y)), (U0_eq x), (U0_eq y) in P.
    rewrite (U0_eq x). apply (Rmult_eq_reg_l a); [|exact H]. lra.
Qed.
Lemma U3_plus x y a : U 3 (x + y) a = U 3 x a + U 3 y a + U 2 x a * U 1 y a + U 1 x a * U 2 y a.
Proof.
  destruct (Req_dec a 0) as [->|H].
  - rewrite !U_alpha0. simpl. field.
  - pose proof (U1_plus x y a) as P.
    rewrite (U0_eq x), (U0_eq y), (U1_eq (x + y)), (U1_eq x), (U1_eq y) in P.
    rewrite (U1_eq x), (U1_eq y). apply (Rmult_eq_reg_l a); [|exact H]. nra.
Qed.

(** Signs and bounds. *)
Lemma U2_nonneg chi alpha : 0 <= U 2 chi alpha.
Proof.
  destruct (Rtotal_order alpha 0) as [H|[H|H]].
  - change 2%nat with (0 + 2)%nat. rewrite U_next, U0_neg by lra. simpl.
    pose proof (cosh_sinh_1 (sqrt (- alpha) * chi)) as P.
    assert (1 <= cosh (sqrt (- alpha) * chi)).
    { assert (0 < cosh (sqrt (- alpha) * chi)).
      { unfold cosh. pose proof (exp_pos (sqrt (- alpha) * chi)).
        pose proof (exp_pos (- (sqrt (- alpha) * chi))). lra. }
      nra. }
    replace ((1 / 1 - cosh (sqrt (- alpha) * chi)) / alpha)
      with ((cosh (sqrt (- alpha) * chi) - 1) * / (- alpha)) by (field; lra).
    apply Rmult_le_pos; [lra|]. apply Rlt_le, Rinv_0_lt_compat; lra.
  - subst. rewrite U_alpha0. simpl. nra.
  - change 2%nat with (0 + 2)%nat. rewrite U_next, U0_pos by lra. simpl.
    pose proof (COS_bound (sqrt alpha * chi)).
    apply Rmult_le_pos; [lra|]. apply Rlt_le, Rinv_0_lt_compat; lra.
Qed.

(** ** Forms used by the property files *)
Lemma ufunc_universal chi alpha :
  ufunc0 chi alpha = universal 0 chi alpha /\ ufunc1 chi alpha = universal 1 chi alpha /\
  ufunc2 chi alpha = universal 2 chi alpha /\ ufunc3 chi alpha = universal 3 chi alpha /\
  ufunc4 chi alpha = universal 4 chi alpha /\ ufunc5 chi alpha = universal 5 chi alpha.
Proof.
  rewrite !U_universal. repeat split;
  [apply ufunc0_U|apply ufunc1_U|apply ufunc2_U|apply ufunc3_U|apply ufunc4_U|apply ufunc5_U].
Qed.

Lemma ufunc_dchi (chi alpha : R) :
  is_derive (fun x => ufunc0 x alpha) chi (- alpha * ufunc1 chi alpha) /\
  is_derive (fun x => ufunc1 x alpha) chi (ufunc0 chi alpha) /\
  is_derive (fun x => ufunc2 x alpha) chi (ufunc1 chi alpha) /\
  is_derive (fun x => ufunc3 x alpha) chi (ufunc2 chi alpha) /\
  is_derive (fun x => ufunc4 x alpha) chi (ufunc3 chi alpha) /\
  is_derive (fun x => ufunc5 x alpha) chi (ufunc4 chi alpha).
Proof.
  rewrite ufunc0_U, ufunc1_U, ufunc2_U, ufunc3_U, ufunc4_U.
  split; [|split; [|split; [|split; [|split]]]].
  - apply (is_derive_ext (fun x => U 0 x alpha)); [intros; now rewrite ufunc0_U|apply U_dchi_0].
  - apply (is_derive_ext (fun x => U 1 x alpha)); [intros; now rewrite ufunc1_U|apply U_dchi].
  - apply (is_derive_ext (fun x => U 2 x alpha)); [intros; now rewrite ufunc2_U|apply U_dchi].
  - apply (is_derive_ext (fun x => U 3 x alpha)); [intros; now rewrite ufunc3_U|apply U_dchi].
  - apply (is_derive_ext (fun x => U 4 x alpha)); [intros; now rewrite ufunc4_U|apply U_dchi].
  - apply (is_derive_ext (fun x => U 5 x alpha)); [intros; now rewrite ufunc5_U|apply U_dchi].
Qed.

Lemma der_val (f : R -> R) (x a b : R) : a = b -> is_derive f x a -> is_derive f x b.
Proof. now intros <-. Qed.

Lemma ufunc_dalpha (chi alpha : R) :
  is_derive (fun a => ufunc0 chi a) alpha (- chi * ufunc1 chi alpha / 2) /\
  is_derive (fun a => ufunc1 chi a) alpha ((ufunc3 chi alpha - chi * ufunc2 chi alpha) / 2) /\
  is_derive (fun a => ufunc2 chi a) alpha ((2 * ufunc4 chi alpha - chi * ufunc3 chi alpha) / 2) /\
  is_derive (fun a => ufunc3 chi a) alpha ((3 * ufunc5 chi alpha - chi * ufunc4 chi alpha) / 2).
Proof.
  rewrite ufunc1_U, ufunc2_U, ufunc3_U, ufunc4_U, ufunc5_U.
  split; [|split; [|split]].
  - apply (is_derive_ext (fun a => U 0 chi a)); [intros; now rewrite ufunc0_U|].
    eapply der_val; [|apply U_dalpha]. simpl. field.
  - apply (is_derive_ext (fun a => U 1 chi a)); [intros; now rewrite ufunc1_U|].
    eapply der_val; [|apply U_dalpha]. simpl. field.
  - apply (is_derive_ext (fun a => U 2 chi a)); [intros; now rewrite ufunc2_U|].
    eapply der_val; [|apply U_dalpha]. simpl. field.
  - apply (is_derive_ext (fun a => U 3 chi a)); [intros; now rewrite ufunc3_U|].
    eapply der_val; [|apply U_dalpha]. simpl. field.
Qed.

Lemma U_cont_alpha n (chi alpha : R) (f : R -> R) : (forall a, f a = U n chi a) ->
  filterlim f (locally alpha) (locally (f alpha)).
Proof.
  intros H. rewrite H.
  apply (filterlim_ext (fun a => U n chi a)); [intros; now rewrite H|].
  refine (ex_derive_continuous (fun a : R => U n chi a) alpha _). eexists. apply U_dalpha.
Qed.
Lemma ufunc_join (chi : R) :
  filterlim (ufunc0 chi) (locally 0) (locally (ufunc0 chi 0)) /\
  filterlim (ufunc1 chi) (locally 0) (locally (ufunc1 chi 0)) /\
  filterlim (ufunc2 chi) (locally 0) (locally (ufunc2 chi 0)) /\
  filterlim (ufunc3 chi) (locally 0) (locally (ufunc3 chi 0)) /\
  filterlim (ufunc4 chi) (locally 0) (locally (ufunc4 chi 0)) /\
  filterlim (ufunc5 chi) (locally 0) (locally (ufunc5 chi 0)).
Proof.
  split; [|split; [|split; [|split; [|split]]]].
  - apply (U_cont_alpha 0 chi). apply ufunc0_U.
  - apply (U_cont_alpha 1 chi). apply ufunc1_U.
  - apply (U_cont_alpha 2 chi). apply ufunc2_U.
  - apply (U_cont_alpha 3 chi). apply ufunc3_U.
  - apply (U_cont_alpha 4 chi). apply ufunc4_U.
  - apply (U_cont_alpha 5 chi). apply ufunc5_U.
Qed.

Lemma ufunc1_par chi : ufunc1 chi 0 = chi.
Proof. rewrite ufunc1_U, U_alpha0. simpl. field. Qed.
Lemma ufunc3_par : ufunc3 (1 + 2) 0 = 9 / 2.
Proof. rewrite ufunc3_U, U_alpha0. simpl. field. Qed.
Lemma ufunc1_branches : ufunc1 2 1 = sin 2 /\ ufunc1 2 0 = 2 /\ ufunc1 2 (-1) = sinh 2.
Proof.
  split; [|split; [apply ufunc1_par|]]; rewrite ufunc1_U.
  - rewrite U1_pos by lra. rewrite sqrt_1. unfold Rdiv. rewrite Rmult_1_l. field.
  - rewrite U1_neg by lra. replace (- -1) with 1 by lra. rewrite sqrt_1, Rmult_1_l. field.
Qed.

Lemma ufunc_rec chi alpha :
  ufunc0 chi alpha + alpha * ufunc2 chi alpha = 1 /\
  ufunc1 chi alpha + alpha * ufunc3 chi alpha = chi /\
  ufunc2 chi alpha + alpha * ufunc4 chi alpha = chi ^ 2 / 2 /\
  ufunc3 chi alpha + alpha * ufunc5 chi alpha = chi ^ 3 / 6.
Proof.
  rewrite ufunc0_U, ufunc1_U, ufunc2_U, ufunc3_U, ufunc4_U, ufunc5_U.
  rewrite (U0_eq chi), (U1_eq chi), (U2_eq chi), (U3_eq chi). repeat split; field.
Qed.
Lemma ufunc_squares chi alpha :
  ufunc0 chi alpha ^ 2 + alpha * ufunc1 chi alpha ^ 2 = 1 /\
  ufunc1 chi alpha ^ 2 = ufunc2 chi alpha * (1 + ufunc0 chi alpha).
Proof. rewrite ufunc0_U, ufunc1_U, ufunc2_U. split; [apply U_pyth|apply U_half]. Qed.
Lemma ufunc_addition x y alpha :
  ufunc0 (x + y) alpha = ufunc0 x alpha * ufunc0 y alpha - alpha * ufunc1 x alpha * ufunc1 y alpha /\
  ufunc1 (x + y) alpha = ufunc1 x alpha * ufunc0 y alpha + ufunc0 x alpha * ufunc1 y alpha /\
  ufunc2 (x + y) alpha = ufunc2 x alpha + ufunc0 x alpha * ufunc2 y alpha + ufunc1 x alpha * ufunc1 y alpha /\
  ufunc3 (x + y) alpha
  = ufunc3 x alpha + ufunc3 y alpha + ufunc2 x alpha * ufunc1 y alpha + ufunc1 x alpha * ufunc2 y alpha.
Proof.
  rewrite !ufunc0_U, !ufunc1_U, !ufunc2_U, !ufunc3_U.
  split; [apply U0_plus|split; [apply U1_plus|split; [apply U2_plus|apply U3_plus]]].
Qed.
Lemma ufunc_parity chi alpha :
  ufunc0 (- chi) alpha = ufunc0 chi alpha /\ ufunc1 (- chi) alpha = - ufunc1 chi alpha /\
  ufunc2 (- chi) alpha = ufunc2 chi alpha /\ ufunc3 (- chi) alpha = - ufunc3 chi alpha /\
  ufunc4 (- chi) alpha = ufunc4 chi alpha /\ ufunc5 (- chi) alpha = - ufunc5 chi alpha.
Proof.
  rewrite !ufunc0_U, !ufunc1_U, !ufunc2_U, !ufunc3_U, !ufunc4_U, !ufunc5_U, !U_opp.
  repeat split; ring.
Qed.
Lemma ufunc_zero alpha :
  ufunc0 0 alpha = 1 /\ ufunc1 0 alpha = 0 /\ ufunc2 0 alpha = 0 /\
  ufunc3 0 alpha = 0 /\ ufunc4 0 alpha = 0 /\ ufunc5 0 alpha = 0.
Proof.
  rewrite !ufunc0_U, !ufunc1_U, !ufunc2_U, !ufunc3_U, !ufunc4_U, !ufunc5_U, !U_zero. now simpl.
Qed.
Lemma ufunc_units k chi alpha : 0 < k ->
  ufunc0 (k * chi) (alpha / k ^ 2) = ufunc0 chi alpha /\
  ufunc1 (k * chi) (alpha / k ^ 2) = k * ufunc1 chi alpha /\
  ufunc2 (k * chi) (alpha / k ^ 2) = k ^ 2 * ufunc2 chi alpha /\
  ufunc3 (k * chi) (alpha / k ^ 2) = k ^ 3 * ufunc3 chi alpha /\
  ufunc4 (k * chi) (alpha / k ^ 2) = k ^ 4 * ufunc4 chi alpha /\
  ufunc5 (k * chi) (alpha / k ^ 2) = k ^ 5 * ufunc5 chi alpha.
Proof.
  intros Hk. rewrite !ufunc0_U, !ufunc1_U, !ufunc2_U, !ufunc3_U, !ufunc4_U, !ufunc5_U.
  rewrite !U_scale by lra. repeat split; ring.
Qed.
