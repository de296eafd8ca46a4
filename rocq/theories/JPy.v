(** * JPy: the formulas on Python numbers. *)
From Coq Require Import ZArith Reals Lra Lia List Bool.
From Flocq Require Import Core Plus_error IEEE754.BinarySingleNaN.
From Verif Require B32Fl.
From Verif Require Import Num NumB32 NumB64 B64Lib JFacts OrbIntegrals NumJ SpecJ.
Local Open Scope R_scope.

Lemma zero_iff (x : b64) : is_zero64 x = true <-> is_finite x = true /\ B2R x = 0.
Proof.
  destruct x as [s | s | | s m e H]; cbn [is_zero64 is_finite]; split; try (intro A; discriminate A); try (intros [A _]; discriminate A).
  - intros _. split; reflexivity.
  - intros _. reflexivity.
  - intros [_ E]. cbn in E. apply eq_0_F2R in E. destruct s; discriminate E.
Qed.

Lemma zero_not (x : b64) : ~ (is_finite x = true /\ B2R x = 0) -> is_zero64 x = false.
Proof. intro H. destruct (is_zero64 x) eqn:E; [apply zero_iff in E; contradiction | reflexivity]. Qed.

Lemma one64 : is_finite (b64_Z 1) = true /\ B2R (b64_Z 1) = 1.
Proof.
  pose proof (binary_normalize_correct 53 1024 _ _ mode_NE 1 0 false) as K.
  cbv zeta in K. change (F2R (Float radix2 1 0)) with (1 * 1) in K. rewrite Rmult_1_r in K.
  change (round radix2 (SpecFloat.fexp 53 1024) (round_mode mode_NE) 1) with (rnd 1) in K.
  assert (F : F64 1).
  { replace 1 with (IZR 1 * bpow radix2 0) by (simpl; ring). apply F64_scaled; lia. }
  rewrite (rnd_id _ F) in K. rewrite Rlt_bool_true in K.
  - destruct K as [E [G _]]. split; assumption.
  - rewrite Rabs_R1. apply Rlt_trans with (bpow radix2 1); [simpl; lra | apply bpow_lt; lia].
Qed.

Lemma sub_zero (x y : b64) : is_finite x = true -> is_finite y = true -> Rabs (B2R x - B2R y) <= IZR (2 ^ 1023) ->
  (is_zero64 (b64_sub x y) = true <-> B2R x = B2R y).
Proof.
  intros Fx Fy H. destruct (sub_exact x y Fx Fy H) as [E F]. rewrite zero_iff, E. split.
  - intros [_ R]. destruct (Req_dec (B2R x - B2R y) 0) as [D | D]; [lra | exfalso].
    revert R. apply round_plus_neq_0; try typeclasses eauto.
    + apply F64_B2R.
    + apply generic_format_opp, F64_B2R.
    + exact D.
  - intro D. split; [exact F |]. rewrite D. replace (B2R y - B2R y) with 0 by ring. apply round_0. apply valid_rnd_round_mode.
Qed.

Lemma add_zero (x y : b64) : is_finite x = true -> is_finite y = true -> Rabs (B2R x + B2R y) <= IZR (2 ^ 1023) ->
  (is_zero64 (b64_add x y) = true <-> B2R x = - B2R y).
Proof.
  intros Fx Fy H. destruct (add_exact x y Fx Fy H) as [E F]. rewrite zero_iff, E. split.
  - intros [_ R]. destruct (Req_dec (B2R x + B2R y) 0) as [D | D]; [lra | exfalso].
    revert R. apply round_plus_neq_0; try typeclasses eauto.
    + apply F64_B2R.
    + apply F64_B2R.
    + exact D.
  - intro D. split; [exact F |]. rewrite D. replace (- B2R y + B2R y) with 0 by ring. apply round_0. apply valid_rnd_round_mode.
Qed.

Section Py.
Variable L : libm.
Variable L' : libm64.
Notation J := (Num_J L).
Notation D := (Num_B64 L').

Ltac py := cbn [Num_J Num_B64 n_div n_sqrt n_mul n_Z n_pi n_sub n_add npow npow_aux mul_opt]; unfold ring_op, j_div, meet;
  cbn [Num_J Num_B64 n_div n_sqrt n_mul n_Z n_pi n_sub n_add npow npow_aux mul_opt].

Lemma small_diff (e : b64) (s : R) : Rabs s <= 1 -> Rabs (B2R e) <= IZR (2 ^ 1000) -> Rabs (s - B2R e) <= IZR (2 ^ 1023).
Proof.
  intros S H. apply Rle_trans with (1 + IZR (2 ^ 1000)).
  - apply Rle_trans with (Rabs s + Rabs (- B2R e)); [apply Rabs_triang |]. rewrite Rabs_Ropp. lra.
  - rewrite <- plus_IZR. apply IZR_le. vm_compute. discriminate.
Qed.

Lemma py_apoapsis (p e : b64) : is_finite e = true -> Rabs (B2R e) <= IZR (2 ^ 1000) ->
  (B2R e = 1 -> @radius_apoapsis _ J (PyF p) (PyF e) = Exc ZeroDivisionError) /\
  (B2R e <> 1 -> @radius_apoapsis _ J (PyF p) (PyF e) = PyF (@radius_apoapsis _ D p e)).
Proof.
  intros F H. destruct one64 as [F1 V1].
  assert (K : Rabs (B2R (b64_Z 1) - B2R e) <= IZR (2 ^ 1023)) by (rewrite V1; apply small_diff; [rewrite Rabs_R1; lra | exact H]).
  pose proof (sub_zero _ _ F1 F K) as Z. rewrite V1 in Z. unfold radius_apoapsis. py. split; intro E.
  - rewrite (proj2 Z (eq_sym E)). reflexivity.
  - destruct (is_zero64 (b64_sub (b64_Z 1) e)) eqn:Q; [exfalso; apply E; symmetry; apply Z; reflexivity | reflexivity].
Qed.

Lemma py_periapsis (p e : b64) : is_finite e = true -> Rabs (B2R e) <= IZR (2 ^ 1000) ->
  (B2R e = -1 -> @radius_periapsis _ J (PyF p) (PyF e) = Exc ZeroDivisionError) /\
  (B2R e <> -1 -> @radius_periapsis _ J (PyF p) (PyF e) = PyF (@radius_periapsis _ D p e)).
Proof.
  intros F H. destruct one64 as [F1 V1].
  assert (K : Rabs (B2R (b64_Z 1) + B2R e) <= IZR (2 ^ 1023)).
  { rewrite V1. replace (1 + B2R e) with (- (-1 - B2R e)) by ring. rewrite Rabs_Ropp. apply small_diff; [| exact H].
    apply Rabs_le. lra. }
  pose proof (add_zero _ _ F1 F K) as Z. rewrite V1 in Z. unfold radius_periapsis. py. split; intro E.
  - rewrite (proj2 Z ltac:(lra)). reflexivity.
  - destruct (is_zero64 (b64_add (b64_Z 1) e)) eqn:Q; [exfalso; apply E; pose proof (proj1 Z eq_refl); lra | reflexivity].
Qed.

Lemma py_semiparameter (h mu : b64) :
  (is_finite mu = true /\ B2R mu = 0 -> @semiparameter _ J (PyF h) (PyF mu) = Exc ZeroDivisionError) /\
  (~ (is_finite mu = true /\ B2R mu = 0) -> @semiparameter _ J (PyF h) (PyF mu) = PyF (@semiparameter _ D h mu)).
Proof.
  unfold semiparameter. py. split; intro E.
  - rewrite (proj2 (zero_iff mu) E). reflexivity.
  - rewrite (zero_not mu E). reflexivity.
Qed.

Lemma py_semimajor (r v mu : b64) : let zero x := is_finite x = true /\ B2R x = 0 in
  let bad := zero r \/ zero mu \/ zero (b64_sub (b64_div (b64_Z 2) r) (b64_div (b64_mul v v) mu)) in
  (bad -> @semimajor_axis _ J (PyF r) (PyF v) (PyF mu) = Exc ZeroDivisionError) /\
  (~ bad -> @semimajor_axis _ J (PyF r) (PyF v) (PyF mu) = PyF (@semimajor_axis _ D r v mu)).
Proof.
  intros zero bad. unfold semimajor_axis. py. split; intro E.
  - destruct E as [E | [E | E]]; apply zero_iff in E.
    + rewrite E. reflexivity.
    + rewrite E. destruct (is_zero64 r); reflexivity.
    + destruct (is_zero64 r); [reflexivity |]. destruct (is_zero64 mu); [reflexivity |]. rewrite E. reflexivity.
  - rewrite (zero_not r), (zero_not mu), (zero_not (b64_sub _ _)); [reflexivity | | |]; intro Z; apply E; unfold bad, zero; tauto.
Qed.

Lemma py_a_from_pe (p e : b64) : let d := b64_sub (b64_Z 1) (b64_mul e e) in
  (is_finite d = true /\ B2R d = 0 -> @a_from_pe _ J (PyF p) (PyF e) = Exc ZeroDivisionError) /\
  (~ (is_finite d = true /\ B2R d = 0) -> @a_from_pe _ J (PyF p) (PyF e) = PyF (@a_from_pe _ D p e)).
Proof.
  intro d. unfold a_from_pe. py. fold d. split; intro E.
  - rewrite (proj2 (zero_iff d) E). reflexivity.
  - rewrite (zero_not d E). reflexivity.
Qed.

(** on arrays the same calls return infinities *)
Lemma arr_apoapsis (p e : b32) : is_finite p = true -> B2R p <> 0 -> is_finite e = true -> B2R e = 1 ->
  @radius_apoapsis _ J (F32 p) (F32 e) = F32 (B754_infinity (Bsign p)).
Proof.
  intros Fp P Fe E. unfold radius_apoapsis. cbn [Num_J n_div n_sub n_Z]. unfold ring_op, j_div, meet.
  change (fits 1) with true. cbv iota.
  assert (Q : e = b32_Z 1).
  { apply B2R_inj.
    - destruct e as [s | s | | s m x H]; try discriminate Fe; [cbn in E; lra | reflexivity].
    - reflexivity.
    - rewrite E. symmetry. apply (B32Fl.int_val 1). lia. }
  subst e. replace (b32_sub (b32_Z 1) (b32_Z 1)) with (B754_zero false : b32) by (apply B2SF_inj; vm_compute; reflexivity).
  destruct p as [s | s | | s m x H]; try discriminate Fp; [cbn in P; lra |]. destruct s; reflexivity.
Qed.

Lemma parabola_aux (p64 : b64) (p : b32) : is_finite p = true -> B2R p <> 0 ->
  @radius_apoapsis _ J (PyF p64) (PyF (b64_Z 1)) = Exc ZeroDivisionError /\
  @radius_apoapsis _ J (F32 p) (F32 (b32_Z 1)) = F32 (B754_infinity (Bsign p)) /\
  @semimajor_axis _ J (PyI 2) (PyI 1) (PyI 1) = Exc ZeroDivisionError /\
  @semimajor_axis _ J (F32 (b32_Z 2)) (F32 (b32_Z 1)) (F32 (b32_Z 1)) = F32 (B754_infinity false).
Proof.
  intros F P. destruct one64 as [F1 V1]. destruct (B32Fl.int_val 1 ltac:(lia)) as [V F2]. split; [| split; [| split]].
  - apply py_apoapsis; [exact F1 | | exact V1]. rewrite V1, Rabs_R1. apply IZR_le. vm_compute. discriminate.
  - apply arr_apoapsis; assumption.
  - unfold semimajor_axis. py. change (2 =? 0)%Z with false. change (1 =? 0)%Z with false. cbv iota.
    replace (is_zero64 _) with true by (vm_compute; reflexivity). reflexivity.
  - unfold semimajor_axis. py. change (fits 1) with true. change (fits 2) with true. cbv iota.
    match goal with |- F32 ?a = F32 ?b => replace a with b; [reflexivity | apply B2SF_inj; vm_compute; reflexivity] end.
Qed.

Lemma a_from_period_const :
  @a_from_period _ J (F32 (b32_Z 2)) (F32 (b32_Z 1)) = F32 (m_cbrt L (b32_div (b32_Z 1) (b32_div (b32_Z 10349030) (b32_Z 1048576)))) /\
  @a_from_period _ (Num_B32 L) (b32_Z 2) (b32_Z 1) = m_cbrt L (b32_div (b32_Z 1) (b32_div (b32_Z 10349031) (b32_Z 1048576))) /\
  b32_div (b32_Z 1) (b32_div (b32_Z 10349030) (b32_Z 1048576)) <> b32_div (b32_Z 1) (b32_div (b32_Z 10349031) (b32_Z 1048576)).
Proof.
  split; [| split].
  - unfold a_from_period, npow. cbn [Num_J n_cbrt n_div n_mul n_Z n_pi npow_aux mul_opt]. unfold ring_op, j_div, meet, j_fun.
    change (fits 4) with true. cbv iota.
    apply (f_equal (fun z => F32 (m_cbrt L z))). apply B2SF_inj. vm_compute. reflexivity.
  - unfold a_from_period, npow. cbn [Num_B32 n_cbrt n_div n_mul n_Z n_pi npow_aux mul_opt].
    apply (f_equal (m_cbrt L)). apply B2SF_inj. vm_compute. reflexivity.
  - intro E. apply (f_equal B2SF) in E. vm_compute in E. discriminate E.
Qed.
End Py.

Definition some_libm64 : libm64 :=
  let i (x : b64) := x in
  {| d_cbrt := i; d_sin := i; d_cos := i; d_sinh := i; d_cosh := i; d_log := i; d_arccos := i; d_arctan2 := fun x _ => x |}.

Definition parabola_python (L : libm) := parabola_aux L some_libm64.
