(** * RevOps: the backward pass pairs to the forward one *)
From Coq Require Import Reals Lra Lia ZArith List Bool String.
From Coquelicot Require Import Coquelicot.
Import ListNotations.
From Verif Require Import Num NumR NumD NumV Spec SpecAd SpecRev Gravity.
From Verif Require Import OrbIntegrals Uniformulas Lagrange KepEqu RotMat OrbElements StateTrans PropKepler Trace.
Local Open Scope R_scope.

Lemma pair_add n f g w : pairing n (fun i => f i + g i) w = pairing n f w + pairing n g w.
Proof. induction n as [| n IH]; simpl; [ring | rewrite IH; ring]. Qed.
Lemma pair_0 n w : pairing n (fun _ => 0) w = 0.
Proof. induction n as [| n IH]; simpl; [ring | rewrite IH; ring]. Qed.
Lemma pair_ext n f g w : (forall i, f i = g i) -> pairing n f w = pairing n g w.
Proof. intro H. induction n as [| n IH]; simpl; [reflexivity | now rewrite IH, H]. Qed.
Lemma pair_input n i ct w : (i < n)%nat -> pairing n (fun j => if Nat.eqb i j then ct else 0) w = ct * w i.
Proof.
  induction n as [| n IH]; intro H; [inversion H |]. simpl. destruct (Nat.eqb_spec i n) as [-> | E].
  - enough (Z : forall m, (m <= n)%nat -> pairing m (fun j => if Nat.eqb n j then ct else 0) w = 0) by (rewrite Z by apply le_n; ring).
    induction m as [| m IHm]; intro L; simpl; [reflexivity |]. rewrite IHm by (apply Nat.lt_le_incl; exact L).
    destruct (Nat.eqb_spec n m) as [-> | _]; [exfalso; exact (Nat.lt_irrefl _ L) | ring].
  - rewrite IH by lia. ring.
Qed.

Section Mirror.
  Variables (n : nat) (w : nat -> R).
  Definition mir (r : node) (d : dual) : Prop := nval r = val d /\ forall ct, pairing n (back r ct) w = ct * tang d.
  Definition vmir (r : V3 node) (d : V3 dual) : Prop := mir (c0 r) (c0 d) /\ mir (c1 r) (c1 d) /\ mir (c2 r) (c2 d).
  Definition mmir (r : M3 node) (d : M3 dual) : Prop := vmir (c0 r) (c0 d) /\ vmir (c1 r) (c1 d) /\ vmir (c2 r) (c2 d).
  Definition the_dual (r : node) : dual := mkD (nval r) (pairing n (back r 1) w).
  Definition the_dualv (r : V3 node) : V3 dual := vmap3 the_dual r.

  Lemma pulls_both x s r : pulls n w x s r -> carries x s (the_dual r) /\ mir r (the_dual r).
  Proof using.
    intros [V D]. assert (C : is_derive x s (pairing n (back r 1) w)).
    { apply (is_derive_ext (fun u : R => 1 * x u)); [intro; apply Rmult_1_l | apply D]. }
    split; [split; [exact V | exact C] | split; [reflexivity |]].
    intro ct. cbn [tang the_dual]. pose proof (D ct) as Dc. apply is_derive_unique in Dc. rewrite <- Dc.
    rewrite Derive_scal. f_equal. exact (is_derive_unique _ _ _ C).
  Qed.
  Lemma pulls_carries x s r : pulls n w x s r -> carries x s (the_dual r). Proof using. apply pulls_both. Qed.
  Lemma pulls_mir x s r : pulls n w x s r -> mir r (the_dual r). Proof using. apply pulls_both. Qed.
  Lemma vpulls_carries x s r : vpulls n w x s r -> vcarries x s (the_dualv r).
  Proof using. intros [A [B C]]. split; [| split]; apply pulls_carries; assumption. Qed.
  Lemma vpulls_mir x s r : vpulls n w x s r -> vmir r (the_dualv r).
  Proof using. intros [A [B C]]. split; [| split]; eapply pulls_mir; eassumption. Qed.
  Lemma pulls_of x s r d : carries x s d -> mir r d -> pulls n w x s r.
  Proof using.
    intros [V D] [E P]. split; [congruence |]. intro ct. rewrite P. apply is_derive_scal. exact D.
  Qed.
  Lemma vpulls_of x s r d : vcarries x s d -> vmir r d -> vpulls n w x s r.
  Proof using. intros [A [B C]] [A' [B' C']]. split; [| split]; eapply pulls_of; eassumption. Qed.
  Lemma mpulls_of x s r d : mcarries x s d -> mmir r d -> mpulls n w x s r.
  Proof using. intros [A [B C]] [A' [B' C']]. split; [| split]; eapply vpulls_of; eassumption. Qed.
  Lemma pulls_input i x s : (i < n)%nat -> is_derive x s (w i) -> pulls n w x s (input i (x s)).
  Proof using.
    intros L D. split; [reflexivity |]. intro ct. cbn [back input]. rewrite (pair_input n i ct w L). apply is_derive_scal. exact D.
  Qed.
  Lemma pulls_constant c s : pulls n w (fun _ => c) s (constant c).
  Proof using. split; [reflexivity |]. intro ct. cbn [back constant]. rewrite pair_0. apply (is_derive_const (ct * c)). Qed.

  Lemma m_const c : mir (constant c) (konst c).
  Proof using. split; [reflexivity |]. intro ct. cbn. rewrite pair_0. ring. Qed.
  Lemma m_Z z : mir (@n_Z _ Num_V z) (@n_Z _ Num_D z). Proof using. apply m_const. Qed.
  Lemma m_dec p q : mir (@n_dec _ Num_V p q) (@n_dec _ Num_D p q). Proof using. apply m_const. Qed.
  Lemma m_pi : mir (@n_pi _ Num_V) (@n_pi _ Num_D). Proof using. apply m_const. Qed.
  Lemma m_un f df t r d : mir r d -> tang d * df (val d) = t -> mir (unary f df r) (mkD (f (val d)) t).
  Proof using. intros [V P] E. split; cbn; [now rewrite V |]. intro ct. rewrite P, V, <- E. ring. Qed.
  Lemma m_bin f da db t r d r' d' : mir r d -> mir r' d' -> tang d * da (val d) (val d') + tang d' * db (val d) (val d') = t ->
    mir (binary f da db r r') (mkD (f (val d) (val d')) t).
  Proof using. intros [V P] [V' P'] E. split; cbn; [now rewrite V, V' |]. intro ct. rewrite pair_add, P, P', V, V', <- E. ring. Qed.
  Section Ops.
    Context (r r' : node) (d d' : dual) (H : mir r d) (H' : mir r' d').
    Lemma m_add : mir (@n_add _ Num_V r r') (@n_add _ Num_D d d'). Proof using H H'. apply m_bin; [assumption | assumption | ring]. Qed.
    Lemma m_sub : mir (@n_sub _ Num_V r r') (@n_sub _ Num_D d d'). Proof using H H'. apply m_bin; [assumption | assumption | ring]. Qed.
    Lemma m_mul : mir (@n_mul _ Num_V r r') (@n_mul _ Num_D d d'). Proof using H H'. apply m_bin; [assumption | assumption | ring]. Qed.
    Lemma m_div : mir (@n_div _ Num_V r r') (@n_div _ Num_D d d'). Proof using H H'. apply m_bin; [assumption | assumption | unfold Rdiv; ring]. Qed.
    Lemma m_neg : mir (@n_neg _ Num_V r) (@n_neg _ Num_D d). Proof using H. apply m_un; [assumption | ring]. Qed.
    Lemma m_abs : mir (@n_abs _ Num_V r) (@n_abs _ Num_D d). Proof using H. apply m_un; [assumption | ring]. Qed.
    Lemma m_sqrt : mir (@n_sqrt _ Num_V r) (@n_sqrt _ Num_D d). Proof using H. apply m_un; [assumption | reflexivity]. Qed.
    Lemma m_cbrt : mir (@n_cbrt _ Num_V r) (@n_cbrt _ Num_D d). Proof using H. apply m_un; [assumption | reflexivity]. Qed.
    Lemma m_sin : mir (@n_sin _ Num_V r) (@n_sin _ Num_D d). Proof using H. apply m_un; [assumption | ring]. Qed.
    Lemma m_cos : mir (@n_cos _ Num_V r) (@n_cos _ Num_D d). Proof using H. apply m_un; [assumption | ring]. Qed.
    Lemma m_sinh : mir (@n_sinh _ Num_V r) (@n_sinh _ Num_D d). Proof using H. apply m_un; [assumption | ring]. Qed.
    Lemma m_cosh : mir (@n_cosh _ Num_V r) (@n_cosh _ Num_D d). Proof using H. apply m_un; [assumption | ring]. Qed.
    Lemma m_log : mir (@n_log _ Num_V r) (@n_log _ Num_D d). Proof using H. apply m_un; [assumption | reflexivity]. Qed.
    Lemma m_arccos : mir (@n_arccos _ Num_V r) (@n_arccos _ Num_D d). Proof using H. apply m_un; [assumption | unfold Rdiv; ring]. Qed.
    Lemma m_arctan2 : mir (@n_arctan2 _ Num_V r r') (@n_arctan2 _ Num_D d d').
    Proof using H H'. apply (m_bin atan2); [assumption | assumption | unfold Rdiv; ring]. Qed.
    Lemma m_max : mir (@n_max _ Num_V r r') (@n_max _ Num_D d d').
    Proof using H H'. apply (m_bin Rmax); [assumption | assumption |]. destruct (Rlt_dec (val d') (val d)); [ring |]. destruct (Rlt_dec (val d) (val d')); [ring | unfold Rdiv; ring]. Qed.
    Lemma m_lt : @n_lt _ Num_V r r' = @n_lt _ Num_D d d'.
    Proof using H H'. destruct H as [V _], H' as [V' _]. cbn. now rewrite V, V'. Qed.
  End Ops.
  Lemma m_floor r d : mir r d -> mir (@n_floor _ Num_V r) (@n_floor _ Num_D d).
  Proof using. intros [V _]. cbn. rewrite V. apply m_const. Qed.
  Lemma m_gt r r' d d' : mir r d -> mir r' d' -> @n_gt _ Num_V r r' = @n_gt _ Num_D d d'.
  Proof using. intros H H'. apply m_lt; assumption. Qed.
  Lemma m_if (b b' : bool) r r' d d' : b = b' -> mir r d -> mir r' d' -> mir (if b then r else r') (if b' then d else d').
  Proof using. intros <- H H'. destruct b; assumption. Qed.
  Lemma m_npow r d p : mir r d -> mir (@npow _ Num_V r p) (@npow _ Num_D d p).
  Proof using.
    unfold npow. assert (K : forall a a', (match a, a' with Some x, Some y => mir x y | None, None => True | _, _ => False end) ->
      forall r d, mir r d -> mir (@npow_aux _ Num_V a r p) (@npow_aux _ Num_D a' d p)).
    { induction p as [p IH | p IH |]; intros a a' A x y X; cbn [npow_aux].
      - apply IH; [| apply m_mul; assumption]. destruct a, a'; cbn; try contradiction; [apply m_mul; assumption | assumption].
      - apply IH; [assumption | apply m_mul; assumption].
      - destruct a, a'; cbn; try contradiction; [apply m_mul; assumption | assumption]. }
    intro H. apply K; [exact I | exact H].
  Qed.
End Mirror.
