(** * RoundFn: how an error of the argument enters sin, cos, sinh and cosh *)
From Coq Require Import ZArith Reals Lra Lia Psatz.
From Coquelicot Require Import Coquelicot.
From Verif Require Import RelLib RoundAn.
Local Open Scope R_scope.

Lemma exp_le' (a b : R) : a <= b -> exp a <= exp b.
Proof. intros [H | ->]; [left; apply exp_increasing; exact H | right; reflexivity]. Qed.

Section Gam.
  Variable u : R.
  Hypothesis U0 : 0 <= u.
  Lemma gam_pos' (k : nat) : 0 <= gam u k.
  Proof. unfold gam. pose proof (pow_R1_Rle (1 + u) k ltac:(lra)). lra. Qed.
  Lemma gam_S' (k : nat) : gam u (S k) = gam u k + u * (1 + gam u k).
  Proof. unfold gam. simpl. ring. Qed.
  Lemma gam_ge' (k : nat) : INR k * u <= gam u k.
  Proof. induction k; [unfold gam; simpl; lra |]. rewrite gam_S', S_INR. pose proof (gam_pos' k). nra. Qed.
  Lemma gam_add' (j k : nat) : gam u (j + k) = gam u j + gam u k + gam u j * gam u k.
  Proof. unfold gam. rewrite pow_add. ring. Qed.
  Lemma gam_mono' (j k : nat) : (j <= k)%nat -> gam u j <= gam u k.
  Proof. intro H. unfold gam. pose proof (Rle_pow (1 + u) j k ltac:(lra) H). lra. Qed.
  Lemma gam_two (k : nat) : INR k * u <= 1 / 2 -> gam u k <= 2 * INR k * u.
  Proof.
    induction k; [unfold gam; simpl; lra |]. rewrite gam_S', S_INR. intro H. pose proof (pos_INR k).
    specialize (IHk ltac:(nra)). pose proof (gam_pos' k).
    assert (gam u k <= 1) by nra. nra.
  Qed.

  (** a function of slope at most 1 *)
  Lemma arg_trig (f : R -> R) (c k : nat) (eps x v m y : R) : (forall a b, Rabs (f a - f b) <= Rabs (a - b)) -> eps <= u ->
    Rabs (x - v) <= gam u k * m -> 0 <= m -> Rabs (y - f x) <= INR c * eps -> Rabs (y - f v) <= gam u (c + k) * (1 + m).
  Proof.
    intros F E X M Y. replace (y - f v) with ((y - f x) + (f x - f v)) by ring.
    apply Rle_trans with (1 := Rabs_triang _ _). pose proof (F x v). pose proof (gam_ge' c). pose proof (gam_pos' c). pose proof (gam_pos' k).
    assert (INR c * eps <= INR c * u) by (apply Rmult_le_compat_l; [apply pos_INR | exact E]).
    rewrite gam_add'. assert (0 <= gam u c * gam u k) by (apply Rmult_le_pos; assumption).
    assert (0 <= gam u c * m) by (apply Rmult_le_pos; assumption). assert (0 <= gam u c * gam u k * m) by (apply Rmult_le_pos; assumption). nra.
  Qed.

  Lemma exp_small (d : R) : 0 <= d <= / 1000 -> exp d <= 501 / 500.
  Proof.
    intro H. pose proof (exp_ineq1_le (- d)) as E. rewrite exp_Ropp in E. pose proof (exp_pos d).
    apply Rmult_le_compat_l with (r := exp d) in E; [| lra]. rewrite Rinv_r in E by lra. nra.
  Qed.
  Lemma cosh_near (a b : R) : Rabs (a - b) <= / 1000 -> cosh a <= 501 / 500 * cosh b.
  Proof.
    intro H. assert (E : cosh a <= exp (Rabs (a - b)) * cosh b).
    { unfold cosh. assert (exp a <= exp (Rabs (a - b)) * exp b).
      { rewrite <- exp_plus. apply exp_le'. pose proof (Rle_abs (a - b)). lra. }
      assert (exp (- a) <= exp (Rabs (a - b)) * exp (- b)).
      { rewrite <- exp_plus. apply exp_le'. pose proof (Rle_abs (- (a - b))) as Q. rewrite Rabs_Ropp in Q. lra. }
      lra. }
    pose proof (exp_small (Rabs (a - b)) (conj (Rabs_pos _) H)) as S. assert (0 < cosh b) by (unfold cosh; pose proof (exp_pos b); pose proof (exp_pos (- b)); lra). nra.
  Qed.
  Lemma cosh_ge_sinh (x : R) : Rabs (sinh x) <= cosh x /\ Rabs (cosh x) <= cosh x /\ 1 <= cosh x.
  Proof.
    unfold cosh, sinh. pose proof (exp_pos x) as P. pose proof (exp_pos (- x)) as Q.
    assert (R : exp x * exp (- x) = 1) by (rewrite <- exp_plus, Rplus_opp_r, exp_0; reflexivity).
    split; [apply Rabs_le; lra |]. split; [rewrite Rabs_pos_eq; lra |].
    set (a := exp x) in *. set (b := exp (- x)) in *. pose proof (Rle_0_sqr (a - b)) as Q2. unfold Rsqr in Q2.
    destruct (Rle_lt_dec 2 (a + b)) as [H | H]; [lra |]. exfalso. assert ((a + b) * (a + b) < 2 * 2) by (apply Rmult_le_0_lt_compat; lra). lra.
  Qed.
  (** a function whose slope is at most cosh *)
  Lemma arg_hyp (f g : R -> R) (c k : nat) (eps x v m y : R) :
    (forall x, is_derive f x (g x)) -> (forall x, Rabs (g x) <= cosh x) -> eps <= u -> INR c + INR k <= 100 -> u <= / 100000 ->
    Rabs (x - v) <= gam u k * m -> 0 <= m -> gam u k * m <= / 1000 -> Rabs (y - f x) <= INR c * eps * cosh x ->
    Rabs (y - f v) <= gam u (c + k + 1) * ((1 + m) * cosh v).
  Proof.
    intros D G E CK Hu X M S Y. destruct (cosh_ge_sinh v) as [_ [_ C1]].
    assert (F : Rabs (f x - f v) <= gam u k * m * (501 / 500 * cosh v)).
    { destruct (MVT_gen f v x g) as [w [W1 W2]].
      - intros z _. apply D.
      - intros z _. apply continuity_pt_filterlim, (ex_derive_continuous f z). exists (g z). apply D.
      - rewrite W2, Rabs_mult, Rmult_comm. apply Rmult_le_compat; auto using Rabs_pos.
        apply Rle_trans with (1 := G w). apply cosh_near. apply Rle_trans with (2 := S). apply Rle_trans with (2 := X).
        unfold Rmin, Rmax in W1. destruct (Rle_dec v x); [rewrite !Rabs_pos_eq by lra | rewrite !(Rabs_left1) by lra]; lra. }
    replace (y - f v) with ((y - f x) + (f x - f v)) by ring. apply Rle_trans with (1 := Rabs_triang _ _).
    assert (Cx : cosh x <= 501 / 500 * cosh v) by (apply cosh_near; lra).
    pose proof (gam_ge' c) as GE. pose proof (gam_pos' c) as Gc. pose proof (gam_pos' k) as Gk. pose proof (pos_INR c).
    assert (A1 : INR c * eps * cosh x <= gam u c * (501 / 500 * cosh v)).
    { destruct (cosh_ge_sinh x) as [_ [_ Cx1]]. apply Rle_trans with (INR c * u * cosh x).
      - apply Rmult_le_compat_r; [lra |]. apply Rmult_le_compat_l; lra.
      - apply Rmult_le_compat; try lra. apply Rmult_le_pos; lra. }
    assert (A2 : (gam u c + gam u k * m) * (501 / 500) <= gam u (c + k + 1) * (1 + m)).
    { rewrite gam_add', gam_add'. assert (K : gam u 1 = u) by (unfold gam; simpl; ring). rewrite K.
      set (a := gam u c) in *. set (b := gam u k) in *.
      assert (LA : a <= 2 * INR c * u). { apply gam_two. pose proof (pos_INR k). nra. }
      assert (LB : b <= 2 * INR k * u). { apply gam_two. pose proof (pos_INR k). nra. }
      assert (T : (a + b) * (1 / 500) <= u). { pose proof (pos_INR k). nra. }
      assert (0 <= a * b) by (apply Rmult_le_pos; assumption).
      assert (0 <= a * m) by (apply Rmult_le_pos; assumption). assert (0 <= a * b * m) by (apply Rmult_le_pos; assumption).
      assert (0 <= b * m) by (apply Rmult_le_pos; assumption).
      assert ((b * m) * (1 / 500) <= u * m) by nra.
      assert (0 <= u * m) by (apply Rmult_le_pos; assumption).
      assert (Q : 0 <= (a + b + a * b) * u) by (apply Rmult_le_pos; lra). assert (0 <= (a + b + a * b) * u * m) by (apply Rmult_le_pos; lra). nra. }
    apply Rle_trans with (gam u c * (501 / 500 * cosh v) + gam u k * m * (501 / 500 * cosh v)); [lra |].
    replace (gam u c * (501 / 500 * cosh v) + gam u k * m * (501 / 500 * cosh v)) with ((gam u c + gam u k * m) * (501 / 500) * cosh v) by ring.
    rewrite <- Rmult_assoc. apply Rmult_le_compat_r; lra.
  Qed.
End Gam.

Lemma sin_lip' (a b : R) : Rabs (sin a - sin b) <= Rabs (a - b).
Proof.
  destruct (MVT_gen sin b a cos) as [w [_ W]].
  - intros z _. apply is_derive_sin.
  - intros z _. apply continuity_pt_filterlim, (ex_derive_continuous sin z). exists (cos z). apply is_derive_sin.
  - rewrite W, Rabs_mult. pose proof (COS_bound w). pose proof (Rabs_pos (a - b)).
    assert (Rabs (cos w) <= 1) by (apply Rabs_le; lra). nra.
Qed.
Lemma cos_lip' (a b : R) : Rabs (cos a - cos b) <= Rabs (a - b).
Proof.
  destruct (MVT_gen cos b a (fun x => - sin x)) as [w [_ W]].
  - intros z _. apply is_derive_cos.
  - intros z _. apply continuity_pt_filterlim, (ex_derive_continuous cos z). exists (- sin z). apply is_derive_cos.
  - rewrite W, Rabs_mult. pose proof (SIN_bound w). pose proof (Rabs_pos (a - b)).
    assert (Rabs (- sin w) <= 1) by (apply Rabs_le; lra). nra.
Qed.
Lemma cosh_d (x : R) : is_derive cosh x (sinh x).
Proof. apply is_derive_Reals, derivable_pt_lim_cosh. Qed.
Lemma sinh_d (x : R) : is_derive sinh x (cosh x).
Proof. apply is_derive_Reals, derivable_pt_lim_sinh. Qed.
