(** * UfReal: closed forms of the universal functions, with |alpha| *)
From Coq Require Import ZArith Reals Lra Lia Psatz.
From Coquelicot Require Import Coquelicot.
From Verif Require Import Num NumR Spec SpecFlV RLib Uniformulas SeriesU UFacts.
Local Open Scope R_scope.

Lemma uf_pos (chi alpha : R) : 0 < alpha -> let a := Rabs alpha in let q := sqrt a in let s := q * chi in
  universal 0 chi alpha = cos s /\ universal 1 chi alpha = sin s / q /\ universal 2 chi alpha = (1 - cos s) / a /\
  universal 3 chi alpha = (s - sin s) / alpha / q /\ universal 4 chi alpha = (alpha * chi ^ 2 - 2 + 2 * cos s) / (2 * alpha ^ 2) /\
  universal 5 chi alpha = (alpha ^ 2 * chi ^ 3 - 6 * alpha * chi + 6 * q * sin s) / (6 * alpha ^ 3).
Proof.
  intro H. cbv zeta. rewrite (Rabs_pos_eq alpha) by lra. destruct (ufunc_universal chi alpha) as [<- [<- [<- [<- [<- <-]]]]].
  unfold ufunc0, ufunc1, ufunc2, ufunc3, ufunc4, ufunc5. unnum. unfold ltb. destruct (Rlt_dec 0 alpha); [| lra].
  repeat split; try reflexivity; simpl pow; rewrite ?Rmult_1_r; first [reflexivity | f_equal; ring].
Qed.
Lemma uf_neg (chi alpha : R) : alpha < 0 -> let a := Rabs alpha in let q := sqrt a in let s := q * chi in
  universal 0 chi alpha = cosh s /\ universal 1 chi alpha = sinh s / q /\ universal 2 chi alpha = (cosh s - 1) / a /\
  universal 3 chi alpha = (s - sinh s) / alpha / q /\ universal 4 chi alpha = (alpha * chi ^ 2 - 2 + 2 * cosh s) / (2 * alpha ^ 2) /\
  universal 5 chi alpha = (alpha ^ 2 * chi ^ 3 - 6 * alpha * chi - 6 * q * sinh s) / (6 * alpha ^ 3).
Proof.
  intro H. cbv zeta. rewrite (Rabs_left alpha) by lra. destruct (ufunc_universal chi alpha) as [<- [<- [<- [<- [<- <-]]]]].
  unfold ufunc0, ufunc1, ufunc2, ufunc3, ufunc4, ufunc5. unnum. unfold ltb. destruct (Rlt_dec 0 alpha); [lra |]. destruct (Rlt_dec alpha 0); [| lra].
  repeat split; try reflexivity; simpl pow; rewrite ?Rmult_1_r; first [reflexivity | f_equal; ring].
Qed.
Lemma uf_zero (chi : R) :
  universal 0 chi 0 = 1 /\ universal 1 chi 0 = chi /\ universal 2 chi 0 = chi ^ 2 / 2 /\
  universal 3 chi 0 = chi ^ 3 / 6 /\ universal 4 chi 0 = chi ^ 4 / 24 /\ universal 5 chi 0 = chi ^ 5 / 120.
Proof.
  destruct (ufunc_universal chi 0) as [<- [<- [<- [<- [<- <-]]]]].
  unfold ufunc0, ufunc1, ufunc2, ufunc3, ufunc4, ufunc5. unnum. unfold ltb. destruct (Rlt_dec 0 0); [lra |].
  repeat split; try reflexivity; simpl pow; rewrite ?Rmult_1_r; first [reflexivity | f_equal; ring].
Qed.
Lemma spread_pos (chi alpha : R) : 0 < alpha -> spread chi alpha = 1 + sqrt (Rabs alpha) * Rabs chi.
Proof. intro H. unfold spread. cbv zeta. destruct (Rlt_dec alpha 0); [lra | ring]. Qed.
Lemma spread_neg (chi alpha : R) : alpha < 0 -> spread chi alpha = (1 + sqrt (Rabs alpha) * Rabs chi) * cosh (sqrt (Rabs alpha) * chi).
Proof.
  intro H. unfold spread. cbv zeta. destruct (Rlt_dec alpha 0); [| lra]. f_equal.
  destruct (Rle_lt_dec 0 chi) as [C | C]; [rewrite (Rabs_pos_eq chi) by lra; reflexivity |].
  rewrite (Rabs_left chi) by lra. rewrite <- Ropp_mult_distr_r. unfold cosh. rewrite Ropp_involutive. f_equal. ring.
Qed.

(** ** From a small residual to a small error *)
Definition uni_lhs (alpha r0 s0 x : R) : R := r0 * universal 1 x alpha + s0 * universal 2 x alpha + universal 3 x alpha.
Definition uni_rad (alpha r0 s0 x : R) : R := r0 * universal 0 x alpha + s0 * universal 1 x alpha + universal 2 x alpha.
Lemma uni_lhs_d (alpha r0 s0 x : R) : is_derive (uni_lhs alpha r0 s0) x (uni_rad alpha r0 s0 x).
Proof.
  unfold uni_lhs, uni_rad. rewrite !U_universal.
  apply (is_derive_ext (fun x => r0 * U 1 x alpha + s0 * U 2 x alpha + U 3 x alpha)); [intro; rewrite !U_universal; reflexivity |].
  apply (is_derive_plus (fun x => r0 * U 1 x alpha + s0 * U 2 x alpha) (fun x => U 3 x alpha)); [| apply U_dchi].
  apply (is_derive_plus (fun x => r0 * U 1 x alpha) (fun x => s0 * U 2 x alpha)); (apply is_derive_scal; apply U_dchi).
Qed.
Lemma slope_gap (f g : R -> R) (x y p : R) : (forall z, is_derive f z (g z)) ->
  (forall z, Rmin x y <= z <= Rmax x y -> p <= g z) -> p * Rabs (x - y) <= Rabs (f x - f y).
Proof.
  intros D H. destruct (MVT_gen f y x g) as [w [W1 W2]].
  - intros z _. apply D.
  - intros z _. apply continuity_pt_filterlim, (ex_derive_continuous f z). exists (g z). apply D.
  - rewrite W2, Rabs_mult. apply Rmult_le_compat_r; [apply Rabs_pos |]. apply Rle_trans with (2 := Rle_abs _).
    apply H. rewrite Rmin_comm, Rmax_comm. exact W1.
Qed.
Lemma hyp_lhs_d (e x : R) : is_derive (fun x => e * sinh x - x) x (e * cosh x - 1).
Proof.
  apply (is_derive_minus (fun x => e * sinh x) (fun x => x)).
  - apply is_derive_scal. apply is_derive_Reals, derivable_pt_lim_sinh.
  - apply (is_derive_id (K := R_AbsRing)).
Qed.
