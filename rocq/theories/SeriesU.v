(** * SeriesU: the universal functions as power series *)
From Coq Require Import Reals Lra Lia Psatz.
From Coquelicot Require Import Coquelicot.
From Verif Require Import Num NumR Spec.
Local Open Scope R_scope.

Definition cn (n k : nat) : R := (-1) ^ k / INR (fact (2 * k + n)).
(** Stumpff function [c_n]. *)
Definition St (n : nat) (z : R) : R := PSeries (cn n) z.

Lemma fact_neq n : INR (fact n) <> 0.
Proof. apply INR_fact_neq_0. Qed.

Lemma INR_fact_S n : INR (fact (S n)) = INR (S n) * INR (fact n).
Proof. rewrite <- mult_INR. f_equal. Qed.

Lemma pow_m1_neq k : (-1) ^ k <> 0.
Proof. apply pow_nonzero; lra. Qed.

Lemma cn_neq n k : cn n k <> 0.
Proof.
  unfold cn. unfold Rdiv. apply Rmult_integral_contrapositive_currified.
  - apply pow_m1_neq.
  - apply Rinv_neq_0_compat, fact_neq.
Qed.

Lemma cn_radius n : CV_radius (cn n) = p_infty.
Proof.
  apply CV_radius_infinite_DAlembert.
  - intros k; apply cn_neq.
  - apply (is_lim_seq_le_le (fun _ => 0) _ (fun k => / (INR k + 1))).
    + intros k. split; [apply Rabs_pos|].
      unfold cn. replace (2 * S k + n)%nat with (S (S (2 * k + n)))%nat by lia.
      rewrite !INR_fact_S. set (m := (2 * k + n)%nat).
      assert (Hm : INR k <= INR m) by (apply le_INR; unfold m; lia).
      pose proof (pos_INR k) as Hk.
      rewrite !S_INR.
      replace ((-1) ^ S k / ((INR m + 1 + 1) * ((INR m + 1) * INR (fact m))) / ((-1) ^ k / INR (fact m)))
        with (- (/ (INR m + 1 + 1) * / (INR m + 1))).
      2:{ simpl. field. repeat split; try (apply pow_m1_neq); try apply fact_neq; lra. }
      rewrite Rabs_Ropp, Rabs_pos_eq.
      2:{ apply Rmult_le_pos; apply Rlt_le, Rinv_0_lt_compat; lra. }
      rewrite <- (Rmult_1_l (/ (INR k + 1))).
      apply Rmult_le_compat.
      * apply Rlt_le, Rinv_0_lt_compat; lra.
      * apply Rlt_le, Rinv_0_lt_compat; lra.
      * rewrite <- Rinv_1. apply Rinv_le_contravar; lra.
      * apply Rinv_le_contravar; lra.
    + apply is_lim_seq_const.
    + apply (is_lim_seq_ext (fun k => / INR (S k))).
      * intros k. now rewrite S_INR.
      * apply (is_lim_seq_incr_1 (fun k => / INR k)).
        evar (l : Rbar). replace (Finite 0) with l.
        apply is_lim_seq_inv. apply is_lim_seq_INR. discriminate.
        reflexivity.
Qed.

Lemma cn_ex n z : ex_pseries (cn n) z.
Proof. apply CV_radius_inside. rewrite cn_radius. exact I. Qed.

Lemma St_rec n z : St n z = / INR (fact n) - z * St (n + 2) z.
Proof.
  unfold St. rewrite PSeries_decr_1 by apply cn_ex.
  rewrite (PSeries_ext (PS_decr_1 (cn n)) (PS_opp (cn (n + 2)))).
  - rewrite PSeries_opp. unfold cn. simpl (2 * 0 + n)%nat. simpl ((-1)^0). field. apply fact_neq.
  - intros k. unfold PS_decr_1, PS_opp, cn. replace (2 * S k + n)%nat with (2 * k + (n + 2))%nat by lia.
    simpl pow. unfold opp; simpl. field. apply fact_neq.
Qed.

Lemma St_0 n : St n 0 = / INR (fact n).
Proof. rewrite St_rec. ring. Qed.

Lemma St_derive n z : is_derive (St n) z (- (St (n + 1) z - INR n * St (n + 2) z) / 2).
Proof.
  unfold St.
  evar_last.
  - apply is_derive_PSeries. rewrite cn_radius. exact I.
  - rewrite (PSeries_ext (PS_derive (cn n))
      (PS_plus (PS_scal (- / 2) (cn (n + 1))) (PS_scal (INR n / 2) (cn (n + 2))))).
    + rewrite PSeries_plus, !PSeries_scal; [field| |];
      apply (ex_pseries_scal (V := R_NormedModule)); try apply cn_ex; apply Rmult_comm.
    + intros k. unfold PS_derive, PS_plus, PS_scal, cn, plus, scal, mult.
      replace (2 * S k + n)%nat with (S (2 * k + (n + 1)))%nat by lia.
      replace (2 * k + (n + 2))%nat with (S (2 * k + (n + 1)))%nat by lia.
      rewrite INR_fact_S. cbn -[fact INR pow]. unfold mult; cbn -[fact INR pow].
      set (m := (k + (k + 0) + (n + 1))%nat).
      replace (INR (S m)) with (2 * INR k + INR n + 2).
      2:{ unfold m. rewrite S_INR, !plus_INR. simpl; ring. }
      rewrite S_INR. simpl pow.
      pose proof (pos_INR k); pose proof (pos_INR n).
      field. split; [apply fact_neq| lra].
Qed.

(** Universal functions. *)
Definition U (n : nat) (chi alpha : R) : R := chi ^ n * St n (alpha * chi ^ 2).

Lemma U_rec n chi alpha : U n chi alpha + alpha * U (n + 2) chi alpha = chi ^ n / INR (fact n).
Proof.
  unfold U. rewrite St_rec, pow_add. field. apply fact_neq.
Qed.

Lemma U_universal n chi alpha : universal n chi alpha = U n chi alpha.
Proof.
  unfold universal, U, St, PSeries.
  rewrite <- Series_scal_l. apply Series_ext. intros k. unfold cn.
  rewrite pow_add, Rpow_mult_distr, <- pow_mult.
  replace ((- alpha) ^ k) with ((-1) ^ k * alpha ^ k).
  2:{ rewrite <- Rpow_mult_distr. f_equal; ring. }
  field. apply fact_neq.
Qed.

Lemma universal_ex n chi alpha :
  ex_series (fun k => (- alpha) ^ k * chi ^ (2 * k + n) / INR (fact (2 * k + n))).
Proof.
  pose proof (cn_ex n (alpha * chi ^ 2)) as H. apply ex_pseries_R in H.
  apply (ex_series_scal_l (chi ^ n)) in H.
  refine (ex_series_ext _ _ _ H). intros k. change scal with Rmult. change mult with Rmult.
  unfold cn. rewrite pow_add, Rpow_mult_distr, <- pow_mult.
  replace ((- alpha) ^ k) with ((-1) ^ k * alpha ^ k).
  2:{ rewrite <- Rpow_mult_distr. f_equal; ring. }
  cbv beta. match goal with |- ?a = ?b => change (a = b :> R) end.
  field. apply fact_neq.
Qed.

(** ** Derivatives *)
Lemma U_dchi_0 chi alpha : is_derive (fun x => U 0 x alpha) chi (- alpha * U 1 chi alpha).
Proof.
  unfold U.
  evar_last.
  - apply (is_derive_ext (fun x => St 0 (alpha * x ^ 2))).
    + intros t; simpl; ring.
    + apply (is_derive_comp (St 0) (fun x => alpha * x ^ 2)).
      * apply St_derive.
      * auto_derive; [exact I|reflexivity].
  - unfold scal; simpl; unfold mult; simpl. field.
Qed.

Lemma U_dchi n chi alpha : is_derive (fun x => U (S n) x alpha) chi (U n chi alpha).
Proof.
  destruct (Req_dec chi 0) as [->|Hc].
  - (* at zero *)
    unfold U.
    evar_last.
    + apply (is_derive_mult (fun x => x ^ S n) (fun x => St (S n) (alpha * x ^ 2))).
      * apply is_derive_pow. apply @is_derive_id.
      * apply (is_derive_comp (St (S n)) (fun x => alpha * x ^ 2)).
        -- apply St_derive.
        -- auto_derive; [exact I|reflexivity].
      * intros; apply Rmult_comm.
    + unfold plus, scal, mult, one. cbn -[St INR pow fact]. unfold mult; cbn -[St INR pow fact].
      replace (alpha * 0 ^ 2) with 0 by (simpl; ring).
      rewrite !St_0, INR_fact_S. simpl (0 ^ S n). rewrite !Rmult_0_l.
      pose proof (pos_INR n). rewrite S_INR. field.
      split; [apply fact_neq|lra].
  - unfold U.
    evar_last.
    + apply (is_derive_mult (fun x => x ^ S n) (fun x => St (S n) (alpha * x ^ 2))).
      * apply is_derive_pow. apply @is_derive_id.
      * apply (is_derive_comp (St (S n)) (fun x => alpha * x ^ 2)).
        -- apply St_derive.
        -- auto_derive; [exact I|reflexivity].
      * intros; apply Rmult_comm.
    + unfold plus, scal, mult, one. cbn -[St INR pow fact]. unfold mult; cbn -[St INR pow fact].
      set (z := alpha * chi ^ 2).
      assert (H1 : z * St (n + 2) z = / INR (fact n) - St n z) by (rewrite (St_rec n z); ring).
      assert (H2 : z * St (S n + 2) z = / INR (fact (S n)) - St (S n) z)
        by (rewrite (St_rec (S n) z); ring).
      replace (S n + 1)%nat with (n + 2)%nat by lia.
      apply (Rmult_eq_reg_l chi); [|exact Hc].
      transitivity (chi ^ S n * (INR (S n) * St (S n) z - (z * St (n + 2) z) + INR (S n) * (z * St (S n + 2) z))).
      { unfold z. simpl pow. match goal with |- ?a = ?b => change (a = b :> R) end. replace (S (n + 1)) with (n + 2)%nat by lia. replace (S (n + 2)) with (S n + 2)%nat by lia. field. }
      rewrite H1, H2, INR_fact_S. simpl pow. rewrite S_INR. field.
      pose proof (pos_INR n). split; [apply fact_neq|lra].
Qed.

Lemma U_dalpha n chi alpha :
  is_derive (fun a => U n chi a) alpha ((INR n * U (n + 2) chi alpha - chi * U (n + 1) chi alpha) / 2).
Proof.
  unfold U. evar_last.
  - apply is_derive_scal.
    apply (is_derive_comp (St n) (fun a => a * chi ^ 2)).
    + apply St_derive.
    + auto_derive; [exact I|reflexivity].
  - unfold scal; cbn -[St INR pow fact]; unfold mult; cbn -[St INR pow fact].
    rewrite !pow_add. simpl (chi ^ 1). field.
Qed.

(** ** Closed forms of U0 and U1 *)
Lemma cos_St x : cos x = St 0 (x ^ 2).
Proof.
  unfold St, PSeries. symmetry. apply is_series_unique.
  unfold cos. destruct (exist_cos x²) as [a Ha]. unfold cos_in in Ha.
  apply is_series_Reals in Ha. revert Ha. apply is_series_ext.
  intros k. unfold cos_n, cn. rewrite Nat.add_0_r. f_equal. f_equal. unfold Rsqr; ring.
Qed.

Lemma sin_St x : sin x = x * St 1 (x ^ 2).
Proof.
  unfold sin. destruct (exist_sin x²) as [a Ha]. f_equal.
  unfold St, PSeries. symmetry. apply is_series_unique.
  unfold sin_in in Ha. apply is_series_Reals in Ha. revert Ha. apply is_series_ext.
  intros k. unfold sin_n, cn. f_equal. f_equal. unfold Rsqr; ring.
Qed.

Lemma opp_term n z k : cn n k * (- z) ^ k = / INR (fact (2 * k + n)) * z ^ k.
Proof.
  unfold cn.
  replace ((- z) ^ k) with ((-1) ^ k * z ^ k) by (rewrite <- Rpow_mult_distr; f_equal; ring).
  replace ((-1) ^ k / INR (fact (2 * k + n)) * ((-1) ^ k * z ^ k))
    with (((-1) ^ k * (-1) ^ k) * z ^ k * / INR (fact (2 * k + n)))
    by (unfold Rdiv; ring).
  rewrite <- Rpow_mult_distr. replace (-1 * -1) with 1 by ring. rewrite pow1. ring.
Qed.

Lemma ex_inv_fact n z : ex_pseries (fun k => / INR (fact (2 * k + n))) z.
Proof.
  apply ex_pseries_R. pose proof (cn_ex n (- z)) as H. apply ex_pseries_R in H.
  refine (ex_series_ext _ _ _ H). intros k. apply opp_term.
Qed.

Lemma PSeries_inv_fact n z : PSeries (fun k => / INR (fact (2 * k + n))) z = St n (- z).
Proof.
  unfold St, PSeries. apply Series_ext. intros k. symmetry. apply opp_term.
Qed.

Lemma exp_St x : exp x = St 0 (- x ^ 2) + x * St 1 (- x ^ 2).
Proof.
  pose proof (is_exp_Reals x) as H. apply is_pseries_unique in H. rewrite <- H.
  rewrite PSeries_odd_even.
  - rewrite <- !PSeries_inv_fact. f_equal. apply PSeries_ext. intros k. now rewrite Nat.add_0_r.
  - generalize (ex_inv_fact 0 (x ^ 2)). apply ex_series_ext. intros k. now rewrite Nat.add_0_r.
  - apply ex_inv_fact.
Qed.

Lemma cosh_St x : cosh x = St 0 (- x ^ 2).
Proof.
  unfold cosh. rewrite (exp_St x), (exp_St (- x)). replace ((- x) ^ 2) with (x ^ 2) by ring. field.
Qed.

Lemma sinh_St x : sinh x = x * St 1 (- x ^ 2).
Proof.
  unfold sinh. rewrite (exp_St x), (exp_St (- x)). replace ((- x) ^ 2) with (x ^ 2) by ring. field.
Qed.
