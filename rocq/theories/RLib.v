(** * RLib: the model at the real instance, unfolded to ordinary real expressions *)
From Coq Require Import Reals Lra Lia Psatz.
From Coquelicot Require Import Coquelicot.
From Verif Require Import Num NumR Spec.
Local Open Scope R_scope.

Ltac unnum :=
  cbv [n_Z n_dec n_pi n_add n_sub n_mul n_div n_neg n_abs n_sqrt n_cbrt n_sin n_cos
       n_sinh n_cosh n_log n_arccos n_arctan2 n_floor n_max n_lt n_gt Num_R where_
       npow npow_aux mul_opt].

Lemma ltb_true x y : ltb x y = true <-> x < y.
Proof. unfold ltb. destruct (Rlt_dec x y); split; intros; auto; discriminate. Qed.

Lemma ltb_false x y : ltb x y = false <-> y <= x.
Proof.
  unfold ltb. destruct (Rlt_dec x y); split; intros; auto; try discriminate; lra.
Qed.

(** Vector operations of the model are the textbook ones. *)
Lemma vinner_dot (a b : V3 R) : vinner a b = dot a b.
Proof. reflexivity. Qed.
Lemma vcross_cross (a b : V3 R) : vcross a b = cross a b.
Proof. reflexivity. Qed.
Lemma vector_norm_vnorm (a : V3 R) : vector_norm a = vnorm a.
Proof. reflexivity. Qed.
Lemma vadd_vplus (a b : V3 R) : vadd a b = vplus a b.
Proof. reflexivity. Qed.
Lemma vsub_vminus (a b : V3 R) : vsub a b = vminus a b.
Proof. reflexivity. Qed.
Lemma vscale_smul (k : R) (a : V3 R) : vscale k a = smul k a.
Proof. reflexivity. Qed.
Lemma vdivs_smul (k : R) (a : V3 R) : vdivs a k = smul (/ k) a.
Proof. unfold vdivs, smul, vmap3. cbn. unfold Rdiv. f_equal; apply Rmult_comm. Qed.
Lemma mvec_row_col (A : M3 R) (v : V3 R) : mvec A v = row_col A v.
Proof. reflexivity. Qed.
Lemma mk3_eq {A} (a b c a' b' c' : A) : a = a' -> b = b' -> c = c' -> mk3 a b c = mk3 a' b' c'.
Proof. intros; subst; reflexivity. Qed.
Lemma mmul_mprod (A B : M3 R) : mmul A B = mprod A B.
Proof.
  destruct A as [[? ? ?] [? ? ?] [? ? ?]], B as [[? ? ?] [? ? ?] [? ? ?]].
  unfold mmul, mprod, row_col, trans, vmap3, mcol, vinner, dot. cbn.
  repeat apply mk3_eq; ring.
Qed.

Lemma V3_eq (a b : vec) : c0 a = c0 b -> c1 a = c1 b -> c2 a = c2 b -> a = b.
Proof. destruct a, b; simpl; intros; subst; reflexivity. Qed.

Ltac vdestruct :=
  repeat match goal with
  | a : V3 R |- _ => destruct a as [? ? ?]
  | a : vec |- _ => destruct a as [? ? ?]
  end.
Ltac vunfold :=
  unfold vplus, vminus, smul, cross, dot, vzero; cbn [c0 c1 c2].
(** Vector identities that hold componentwise by [ring] / [field]. *)
Ltac vring := intros; vdestruct; vunfold; try apply V3_eq; cbn [c0 c1 c2]; ring.

Lemma dot_comm a b : dot a b = dot b a.
Proof. vring. Qed.
Lemma dot_plus_l a b c : dot (vplus a b) c = dot a c + dot b c.
Proof. vring. Qed.
Lemma dot_plus_r a b c : dot c (vplus a b) = dot c a + dot c b.
Proof. vring. Qed.
Lemma dot_minus_l a b c : dot (vminus a b) c = dot a c - dot b c.
Proof. vring. Qed.
Lemma dot_minus_r a b c : dot c (vminus a b) = dot c a - dot c b.
Proof. vring. Qed.
Lemma dot_smul_l k a b : dot (smul k a) b = k * dot a b.
Proof. vring. Qed.
Lemma dot_smul_r k a b : dot a (smul k b) = k * dot a b.
Proof. vring. Qed.
Lemma dot_nonneg a : 0 <= dot a a.
Proof. vdestruct. vunfold. nra. Qed.
Lemma dot_zero a : dot a a = 0 -> a = vzero.
Proof. vdestruct. vunfold. intros. apply V3_eq; cbn; nra. Qed.
Lemma dot_pos a : a <> vzero -> 0 < dot a a.
Proof.
  intros H. destruct (Rle_lt_or_eq_dec _ _ (dot_nonneg a)) as [|E]; auto.
  exfalso. apply H, dot_zero. auto.
Qed.
Lemma vnorm_nonneg a : 0 <= vnorm a.
Proof. apply sqrt_pos. Qed.
Lemma vnorm_sq a : vnorm a * vnorm a = dot a a.
Proof. apply sqrt_sqrt, dot_nonneg. Qed.
Lemma vnorm_sq2 a : vnorm a ^ 2 = dot a a.
Proof. rewrite <- vnorm_sq. ring. Qed.
Lemma vnorm_pos a : a <> vzero -> 0 < vnorm a.
Proof. intros. apply sqrt_lt_R0, dot_pos; auto. Qed.
Lemma vnorm_zero a : vnorm a = 0 -> a = vzero.
Proof. intros H. apply dot_zero. rewrite <- vnorm_sq, H. ring. Qed.
Lemma vnorm_vzero : vnorm vzero = 0.
Proof. unfold vnorm. replace (dot vzero vzero) with 0 by vring. apply sqrt_0. Qed.
Lemma vnorm_neq a : a <> vzero <-> vnorm a <> 0.
Proof.
  split.
  - intros H. pose proof (vnorm_pos a H). lra.
  - intros H E. apply H. subst. apply vnorm_vzero.
Qed.
Lemma vnorm_unique a x : 0 <= x -> x * x = dot a a -> vnorm a = x.
Proof. intros Hx H. unfold vnorm. rewrite <- H. apply sqrt_square, Hx. Qed.
Lemma vnorm_smul k a : vnorm (smul k a) = Rabs k * vnorm a.
Proof.
  apply vnorm_unique.
  - apply Rmult_le_pos; [apply Rabs_pos | apply vnorm_nonneg].
  - rewrite dot_smul_l, dot_smul_r, <- vnorm_sq.
    replace (Rabs k * vnorm a * (Rabs k * vnorm a)) with (Rsqr (Rabs k) * (vnorm a * vnorm a))
      by (unfold Rsqr; ring).
    rewrite <- Rsqr_abs. unfold Rsqr. ring.
Qed.

(** Lagrange's identity and friends. *)
Lemma lagrange_identity a b : dot (cross a b) (cross a b) = dot a a * dot b b - dot a b ^ 2.
Proof. vring. Qed.
Lemma cauchy_schwarz_sq a b : dot a b ^ 2 <= dot a a * dot b b.
Proof. pose proof (dot_nonneg (cross a b)). rewrite lagrange_identity in H. lra. Qed.
Lemma cauchy_schwarz a b : Rabs (dot a b) <= vnorm a * vnorm b.
Proof.
  rewrite <- (Rabs_pos_eq (vnorm a * vnorm b)).
  2:{ apply Rmult_le_pos; apply vnorm_nonneg. }
  apply Rsqr_le_abs_0. unfold Rsqr.
  replace (vnorm a * vnorm b * (vnorm a * vnorm b)) with ((vnorm a * vnorm a) * (vnorm b * vnorm b)) by ring.
  rewrite !vnorm_sq. pose proof (cauchy_schwarz_sq a b). lra.
Qed.
Lemma dot_cross_self_l a b : dot a (cross a b) = 0.
Proof. vring. Qed.
Lemma dot_cross_self_r a b : dot b (cross a b) = 0.
Proof. vring. Qed.
Lemma cross_cross a b c : cross a (cross b c) = vminus (smul (dot a c) b) (smul (dot a b) c).
Proof. vring. Qed.
Lemma dot_vh_vh r v : dot (cross v (cross r v)) (cross v (cross r v)) = dot v v * dot (cross r v) (cross r v).
Proof. vring. Qed.
Lemma dot_vh_r r v : dot (cross v (cross r v)) r = dot (cross r v) (cross r v).
Proof. vring. Qed.
Lemma dot_vh_v r v : dot (cross v (cross r v)) v = 0.
Proof. vring. Qed.
Lemma dot_vh_h r v : dot (cross v (cross r v)) (cross r v) = 0.
Proof. vring. Qed.
Lemma vec_nonzero_l a b : cross a b <> vzero -> a <> vzero.
Proof. intros H E. apply H. subst. vring. Qed.
Lemma vec_nonzero_r a b : cross a b <> vzero -> b <> vzero.
Proof. intros H E. apply H. subst. vring. Qed.
Lemma smul_1 a : smul 1 a = a.
Proof. vring. Qed.
Lemma smul_smul j k a : smul j (smul k a) = smul (j * k) a.
Proof. vring. Qed.

Lemma sqrt_sq_pos x : 0 <= x -> sqrt x * sqrt x = x.
Proof. apply sqrt_sqrt. Qed.
Lemma sqrt_pos_neq x : 0 < x -> sqrt x <> 0.
Proof. intros H. pose proof (sqrt_lt_R0 x H). lra. Qed.

(** The reciprocal of the semimajor axis, [alpha], is [2/r - v^2/mu] (exactly,
    also at zero energy, since [1/(1/x) = x] for every real [x] in Coq and in the
    extended reals of NumX for every [x <> 0], and for [x = 0] there too). *)
Lemma Rinv_1_inv x : 1 / (1 / x) = x.
Proof. unfold Rdiv. rewrite !Rmult_1_l. apply Rinv_inv. Qed.
