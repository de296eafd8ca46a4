(** * Ana: small calculus library over plain reals *)
From Coq Require Import Reals Lra Lia Psatz.
From Coquelicot Require Import Coquelicot.
Local Open Scope R_scope.

Lemma der_eq (f : R -> R) (x a b : R) : is_derive f x a -> a = b -> is_derive f x b.
Proof. intros H <-. exact H. Qed.
Lemma der_ext (f g : R -> R) x a : (forall t, f t = g t) -> is_derive f x a -> is_derive g x a.
Proof. intros H D. exact (is_derive_ext f g x a H D). Qed.
Lemma der_const (c x : R) : is_derive (fun _ : R => c) x 0.
Proof. exact (is_derive_const c x). Qed.
Lemma der_id (x : R) : is_derive (fun t : R => t) x 1.
Proof. exact (is_derive_id x). Qed.
Lemma der_plus (f g : R -> R) x a b : is_derive f x a -> is_derive g x b -> is_derive (fun t => f t + g t) x (a + b).
Proof. intros Hf Hg. exact (is_derive_plus f g x a b Hf Hg). Qed.
Lemma der_minus (f g : R -> R) x a b : is_derive f x a -> is_derive g x b -> is_derive (fun t => f t - g t) x (a - b).
Proof. intros Hf Hg. exact (is_derive_minus f g x a b Hf Hg). Qed.
Lemma der_opp (f : R -> R) x a : is_derive f x a -> is_derive (fun t => - f t) x (- a).
Proof. intros Hf. exact (is_derive_opp f x a Hf). Qed.
Lemma der_scal (f : R -> R) k x a : is_derive f x a -> is_derive (fun t => k * f t) x (k * a).
Proof. intros Hf. exact (is_derive_scal f x k a Hf). Qed.
Lemma der_scal_r (f : R -> R) (k x a : R) : is_derive f x a -> is_derive (fun t => f t * k) x (a * k).
Proof.
  intros Hf. apply (der_eq _ _ (k * a)); [|ring]. apply (der_ext (fun t => k * f t)); [intros; ring|].
  now apply der_scal.
Qed.
Lemma der_mult (f g : R -> R) x a b : is_derive f x a -> is_derive g x b -> is_derive (fun t => f t * g t) x (a * g x + f x * b).
Proof. intros Hf Hg. exact (is_derive_mult f g x a b Hf Hg Rmult_comm). Qed.
Lemma der_inv (f : R -> R) x a : is_derive f x a -> f x <> 0 -> is_derive (fun t => / f t) x (- a / f x ^ 2).
Proof. intros Hf Hn. exact (is_derive_inv f x a Hf Hn). Qed.
Lemma der_div (f g : R -> R) x a b : is_derive f x a -> is_derive g x b -> g x <> 0 ->
  is_derive (fun t => f t / g t) x ((a * g x - f x * b) / g x ^ 2).
Proof. intros Hf Hg Hn. exact (is_derive_div f g x a b Hf Hg Hn). Qed.
Lemma der_comp (f g : R -> R) x a b : is_derive f (g x) a -> is_derive g x b -> is_derive (fun t => f (g t)) x (b * a).
Proof. intros Hf Hg. exact (is_derive_comp f g x a b Hf Hg). Qed.
Lemma der_pow (f : R -> R) n x a : is_derive f x a -> is_derive (fun t => f t ^ n) x (INR n * a * f x ^ pred n).
Proof. intros Hf. exact (is_derive_pow f n x a Hf). Qed.
Lemma der_sqrt (f : R -> R) x a : is_derive f x a -> 0 < f x -> is_derive (fun t => sqrt (f t)) x (a / (2 * sqrt (f x))).
Proof. intros Hf Hn. exact (is_derive_sqrt f x a Hf Hn). Qed.

Lemma der_cont (f : R -> R) x a : is_derive f x a -> continuity_pt f x.
Proof.
  intros H. apply derivable_continuous_pt. exists a. apply is_derive_Reals, H.
Qed.
Lemma der_uniq (f : R -> R) x a b : is_derive f x a -> is_derive f x b -> a = b.
Proof. intros Ha Hb. apply is_derive_unique in Ha. apply is_derive_unique in Hb. congruence. Qed.

Lemma mvt (f df : R -> R) a b : (forall x, is_derive f x (df x)) ->
  exists c, Rmin a b <= c <= Rmax a b /\ f b - f a = df c * (b - a).
Proof.
  intros H. apply MVT_gen.
  - intros; apply H.
  - intros; eapply der_cont, H.
Qed.

Lemma der_zero_const (f : R -> R) : (forall x, is_derive f x 0) -> forall a b, f a = f b.
Proof. intros H a b. destruct (mvt f (fun _ => 0) a b H) as [c [_ E]]. lra. Qed.

Lemma der_nonneg_incr (f df : R -> R) : (forall x, is_derive f x (df x)) -> (forall x, 0 <= df x) ->
  forall a b, a <= b -> f a <= f b.
Proof.
  intros H P a b L. destruct (mvt f df a b H) as [c [_ E]]. specialize (P c).
  assert (0 <= df c * (b - a)) by (apply Rmult_le_pos; lra). lra.
Qed.
Lemma der_pos_incr (f df : R -> R) : (forall x, is_derive f x (df x)) -> (forall x, 0 < df x) ->
  forall a b, a < b -> f a < f b.
Proof.
  intros H P a b L. destruct (mvt f df a b H) as [c [_ E]]. specialize (P c).
  assert (0 < df c * (b - a)) by (apply Rmult_lt_0_compat; lra). lra.
Qed.

(** Monotone on a half line. *)
Lemma der_nonneg_from (f df : R -> R) a : (forall x, is_derive f x (df x)) -> (forall x, a <= x -> 0 <= df x) ->
  forall x y, a <= x -> x <= y -> f x <= f y.
Proof.
  intros H P x y Lx L. destruct (mvt f df x y H) as [c [Hc E]].
  rewrite Rmin_left, Rmax_right in Hc by lra. specialize (P c ltac:(lra)).
  assert (0 <= df c * (y - x)) by (apply Rmult_le_pos; lra). lra.
Qed.

(** A function whose derivative is bounded below by a positive constant is a
    bijection with differentiable inverse. *)
Section Inverse.
  Variables (g dg : R -> R) (c : R).
  Hypothesis Hc : 0 < c.
  Hypothesis Hg : forall x, is_derive g x (dg x).
  Hypothesis Hd : forall x, c <= dg x.

  Lemma bij_expand x y : c * Rabs (x - y) <= Rabs (g x - g y).
  Proof.
    destruct (mvt g dg y x Hg) as [z [_ E]]. rewrite E, Rabs_mult.
    apply Rmult_le_compat_r; [apply Rabs_pos|]. specialize (Hd z). rewrite Rabs_pos_eq; lra.
  Qed.
  Lemma bij_inj x y : g x = g y -> x = y.
  Proof.
    intros E. pose proof (bij_expand x y) as H. replace (g x - g y) with 0 in H by lra. rewrite Rabs_R0 in H.
    pose proof (Rabs_pos (x - y)). assert (A : Rabs (x - y) = 0) by nra.
    destruct (Req_dec (x - y) 0); [lra|]. pose proof (Rabs_no_R0 _ H1). lra.
  Qed.
  Lemma bij_incr x y : x < y -> g x < g y.
  Proof. apply (der_pos_incr g dg Hg). intros z. specialize (Hd z). lra. Qed.

  Lemma bij_root (y : R) : {x : R | g x = y}.
  Proof.
    set (b := (Rabs (y - g 0)) / c).
    assert (Hb : 0 <= b) by (apply Rmult_le_pos; [apply Rabs_pos|]; apply Rlt_le, Rinv_0_lt_compat, Hc).
    destruct (IVT_gen g (- b) b y) as [x [_ E]].
    - intros x. eapply der_cont, Hg.
    - assert (A1 : y <= g b).
      { destruct (mvt g dg 0 b Hg) as [z [_ E]]. specialize (Hd z).
        assert (c * b <= dg z * (b - 0)) by (apply Rmult_le_compat; lra).
        assert (c * b = Rabs (y - g 0)) by (unfold b; field; lra).
        pose proof (Rle_abs (y - g 0)). lra. }
      assert (A2 : g (- b) <= y).
      { destruct (mvt g dg (- b) 0 Hg) as [z [_ E]]. specialize (Hd z).
        assert (c * b <= dg z * (0 - - b)) by (apply Rmult_le_compat; lra).
        assert (c * b = Rabs (y - g 0)) by (unfold b; field; lra).
        pose proof (Rle_abs (- (y - g 0))) as Q. rewrite Rabs_Ropp in Q. lra. }
      split.
      + eapply Rle_trans; [apply Rmin_l|exact A2].
      + eapply Rle_trans; [exact A1|apply Rmax_r].
    - exists x. exact E.
  Qed.

  Variable f : R -> R.
  Hypothesis Hf : forall t, g (f t) = t.

  Lemma inv_lip s t : c * Rabs (f s - f t) <= Rabs (s - t).
  Proof. pose proof (bij_expand (f s) (f t)) as H. now rewrite !Hf in H. Qed.

  Lemma inv_derive t : is_derive f t (/ dg (f t)).
  Proof.
    apply is_derive_Reals. intros eps Heps.
    assert (D : derivable_pt_lim g (f t) (dg (f t))) by apply is_derive_Reals, Hg.
    assert (He2 : 0 < eps * (c * c)) by (apply Rmult_lt_0_compat; nra).
    destruct (D _ He2) as [delta Hdel].
    assert (Hd2 : 0 < c * delta) by (apply Rmult_lt_0_compat; auto; apply cond_pos).
    exists (mkposreal _ Hd2). intros h Hh Hlt. simpl in Hlt.
    set (k := f (t + h) - f t).
    assert (Ek : g (f t + k) - g (f t) = h).
    { unfold k. replace (f t + (f (t + h) - f t)) with (f (t + h)) by ring. rewrite !Hf. ring. }
    assert (Hk : k <> 0).
    { intros Z. rewrite Z, Rplus_0_r in Ek. lra. }
    assert (Kl : Rabs k < delta).
    { pose proof (inv_lip (t + h) t) as L. replace (t + h - t) with h in L by ring.
      apply (Rmult_lt_reg_l c); auto. unfold k. lra. }
    specialize (Hdel k Hk Kl). rewrite Ek in Hdel.
    set (q := h / k) in *. set (d := dg (f t)) in *.
    assert (Hdd : c <= d) by apply Hd.
    assert (Hq : c <= q).
    { destruct (mvt g dg (f t) (f t + k) Hg) as [z [_ E]]. rewrite Ek in E.
      assert (Eq : q = dg z) by (unfold q; rewrite E; field; auto). rewrite Eq. apply Hd. }
    replace (k / h) with (/ q).
    2:{ unfold q. field. split; auto. }
    replace (/ q - / d) with ((d - q) * / (q * d)) by (field; lra).
    rewrite Rabs_mult, Rabs_inv, (Rabs_pos_eq (q * d)) by nra.
    rewrite <- Rabs_Ropp, Ropp_minus_distr.
    assert (Hqd : c * c <= q * d) by (apply Rmult_le_compat; lra).
    assert (Hcc : 0 < c * c) by nra.
    apply (Rmult_lt_reg_r (q * d)); [lra|]. rewrite Rmult_assoc, Rinv_l by lra.
    rewrite Rmult_1_r. eapply Rlt_le_trans; [exact Hdel|].
    apply Rmult_le_compat_l; lra.
  Qed.
End Inverse.
