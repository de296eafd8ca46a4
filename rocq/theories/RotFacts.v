(** * RotFacts: rotation matrices (proofs for C30, used for C31-C33, C41, C45) *)
From Coq Require Import Reals Lra Lia Psatz.
From Verif Require Import Num NumR Spec RLib RotMat OrbIntegrals OrbFacts UFacts.
Local Open Scope R_scope.

Ltac mdestruct :=
  repeat match goal with
  | a : mat |- _ => destruct a as [[? ? ?] [? ? ?] [? ? ?]]
  | a : V3 (V3 R) |- _ => destruct a as [[? ? ?] [? ? ?] [? ? ?]]
  end.
Ltac munfold := unfold mprod, row_col, trans, ident, det, smul, vplus, vminus, cross, dot, vzero; cbn [c0 c1 c2].
Ltac mring := intros; mdestruct; vdestruct; munfold; repeat apply mk3_eq; ring.

(** ** General facts about proper rotations *)
Lemma mprod_assoc A B C : mprod (mprod A B) C = mprod A (mprod B C).
Proof. mring. Qed.
Lemma mprod_ident_r A : mprod A ident = A.
Proof. mring. Qed.
Lemma mprod_ident_l A : mprod ident A = A.
Proof. mring. Qed.
Lemma trans_prod A B : trans (mprod A B) = mprod (trans B) (trans A).
Proof. mring. Qed.
Lemma trans_trans A : trans (trans A) = A.
Proof. mring. Qed.
Lemma det_prod A B : det (mprod A B) = det A * det B.
Proof. intros. mdestruct. munfold. ring. Qed.
Lemma det_trans A : det (trans A) = det A.
Proof. intros. mdestruct. munfold. ring. Qed.
Lemma mprod_vec A B v : row_col (mprod A B) v = row_col A (row_col B v).
Proof. mring. Qed.
Lemma ident_vec v : row_col ident v = v.
Proof. mring. Qed.
Lemma row_col_smul A k v : row_col A (smul k v) = smul k (row_col A v).
Proof. mring. Qed.
Lemma row_col_plus A v w : row_col A (vplus v w) = vplus (row_col A v) (row_col A w).
Proof. mring. Qed.
Lemma row_col_minus A v w : row_col A (vminus v w) = vminus (row_col A v) (row_col A w).
Proof. mring. Qed.
Lemma row_col_zero A : row_col A vzero = vzero.
Proof. mring. Qed.
Lemma dot_trans A v w : dot (row_col A v) w = dot v (row_col (trans A) w).
Proof. mring. Qed.

Definition cof (A : mat) : mat := mk3 (cross (c1 A) (c2 A)) (cross (c2 A) (c0 A)) (cross (c0 A) (c1 A)).
Lemma cof_right A : mprod A (trans (cof A))
  = mk3 (mk3 (det A) 0 0) (mk3 0 (det A) 0) (mk3 0 0 (det A)).
Proof. unfold cof. mring. Qed.
Lemma cof_cross A v w : cross (row_col A v) (row_col A w) = row_col (cof A) (cross v w).
Proof. unfold cof. mring. Qed.

Section Rotation.
  Variable A : mat.
  Hypothesis HA : rotation A.
  Lemma rot_inv_r : mprod A (trans A) = ident.
  Proof.
    destruct HA as [O D].
    assert (E : trans A = trans (cof A)).
    { rewrite <- (mprod_ident_l (trans (cof A))), <- O, mprod_assoc, cof_right, D.
      change (mk3 (mk3 1 0 0) (mk3 0 1 0) (mk3 0 0 1)) with ident. now rewrite mprod_ident_r. }
    rewrite E, cof_right, D. reflexivity.
  Qed.
  Lemma rot_cof : cof A = A.
  Proof.
    destruct HA as [O D].
    assert (E : trans A = trans (cof A)).
    { rewrite <- (mprod_ident_l (trans (cof A))), <- O, mprod_assoc, cof_right, D.
      change (mk3 (mk3 1 0 0) (mk3 0 1 0) (mk3 0 0 1)) with ident. now rewrite mprod_ident_r. }
    apply (f_equal trans) in E. now rewrite !trans_trans in E.
  Qed.
  Lemma rot_dot v w : dot (row_col A v) (row_col A w) = dot v w.
  Proof. rewrite dot_trans, <- mprod_vec. destruct HA as [O _]. now rewrite O, ident_vec. Qed.
  Lemma rot_cross v w : cross (row_col A v) (row_col A w) = row_col A (cross v w).
  Proof. now rewrite cof_cross, rot_cof. Qed.
  Lemma rot_norm v : vnorm (row_col A v) = vnorm v.
  Proof. unfold vnorm. now rewrite rot_dot. Qed.
  Lemma rot_back v : row_col (trans A) (row_col A v) = v.
  Proof. rewrite <- mprod_vec. destruct HA as [O _]. now rewrite O, ident_vec. Qed.
  Lemma rot_inj v w : row_col A v = row_col A w -> v = w.
  Proof. intros H. rewrite <- (rot_back v), <- (rot_back w). now rewrite H. Qed.
  Lemma rot_trans : rotation (trans A).
  Proof. split; [rewrite trans_trans; apply rot_inv_r|]. rewrite det_trans. apply HA. Qed.
  Lemma rot_nonzero v : v <> vzero -> row_col A v <> vzero.
  Proof. intros H E. apply H, rot_inj. now rewrite E, row_col_zero. Qed.
  (** Orbit integrals are equivariant. *)
  Lemma rot_angular_momentum r v :
    angular_momentum (row_col A r) (row_col A v) = row_col A (angular_momentum r v).
  Proof. rewrite !angular_momentum_R. apply rot_cross. Qed.
  Lemma rot_eccentricity_vector r v mu :
    eccentricity_vector (row_col A r) (row_col A v) mu = row_col A (eccentricity_vector r v mu).
  Proof.
    rewrite !eccentricity_vector_R, rot_norm, !rot_cross, row_col_minus, !row_col_smul. reflexivity.
  Qed.
End Rotation.
Lemma rot_prod A B : rotation A -> rotation B -> rotation (mprod A B).
Proof.
  intros [OA DA] [OB DB]. split.
  - rewrite trans_prod, mprod_assoc, <- (mprod_assoc (trans A)), OA, mprod_ident_l. exact OB.
  - rewrite det_prod, DA, DB. ring.
Qed.
Lemma rot_ident : rotation ident.
Proof. split; [apply mprod_ident_r|]. munfold. ring. Qed.

(** ** The three elementary rotations *)
Lemma rotmat3dx_R a : rotmat3dx a = mk3 (mk3 1 0 0) (mk3 0 (cos a) (- sin a)) (mk3 0 (sin a) (cos a)).
Proof. reflexivity. Qed.
Lemma rotmat3dy_R a : rotmat3dy a = mk3 (mk3 (cos a) 0 (sin a)) (mk3 0 1 0) (mk3 (- sin a) 0 (cos a)).
Proof. reflexivity. Qed.
Lemma rotmat3dz_R a : rotmat3dz a = mk3 (mk3 (cos a) (- sin a) 0) (mk3 (sin a) (cos a) 0) (mk3 0 0 1).
Proof. reflexivity. Qed.

Definition ex : vec := mk3 1 0 0.
Definition ey : vec := mk3 0 1 0.
Definition ez : vec := mk3 0 0 1.

(** Rodrigues' formula. *)
Lemma rodrigues_x a u : row_col (rotmat3dx a) u
  = vplus (vplus (smul (cos a) u) (smul (sin a) (cross ex u))) (smul ((1 - cos a) * dot ex u) ex).
Proof. rewrite rotmat3dx_R. unfold ex. mring. Qed.
Lemma rodrigues_y a u : row_col (rotmat3dy a) u
  = vplus (vplus (smul (cos a) u) (smul (sin a) (cross ey u))) (smul ((1 - cos a) * dot ey u) ey).
Proof. rewrite rotmat3dy_R. unfold ey. mring. Qed.
Lemma rodrigues_z a u : row_col (rotmat3dz a) u
  = vplus (vplus (smul (cos a) u) (smul (sin a) (cross ez u))) (smul ((1 - cos a) * dot ez u) ez).
Proof. rewrite rotmat3dz_R. unfold ez. mring. Qed.

Lemma rot_x a : rotation (rotmat3dx a).
Proof.
  rewrite rotmat3dx_R. pose proof (sin_cos_1 a) as H.
  split; munfold; [repeat apply mk3_eq|]; nra.
Qed.
Lemma rot_y a : rotation (rotmat3dy a).
Proof.
  rewrite rotmat3dy_R. pose proof (sin_cos_1 a) as H.
  split; munfold; [repeat apply mk3_eq|]; nra.
Qed.
Lemma rot_z a : rotation (rotmat3dz a).
Proof.
  rewrite rotmat3dz_R. pose proof (sin_cos_1 a) as H.
  split; munfold; [repeat apply mk3_eq|]; nra.
Qed.
Lemma add_x a b : mprod (rotmat3dx a) (rotmat3dx b) = rotmat3dx (a + b).
Proof. rewrite !rotmat3dx_R, cos_plus, sin_plus. mring. Qed.
Lemma add_y a b : mprod (rotmat3dy a) (rotmat3dy b) = rotmat3dy (a + b).
Proof. rewrite !rotmat3dy_R, cos_plus, sin_plus. mring. Qed.
Lemma add_z a b : mprod (rotmat3dz a) (rotmat3dz b) = rotmat3dz (a + b).
Proof. rewrite !rotmat3dz_R, cos_plus, sin_plus. mring. Qed.
Lemma neg_x a : rotmat3dx (- a) = trans (rotmat3dx a).
Proof. rewrite !rotmat3dx_R, cos_neg, sin_neg. mring. Qed.
Lemma neg_y a : rotmat3dy (- a) = trans (rotmat3dy a).
Proof. rewrite !rotmat3dy_R, cos_neg, sin_neg. mring. Qed.
Lemma neg_z a : rotmat3dz (- a) = trans (rotmat3dz a).
Proof. rewrite !rotmat3dz_R, cos_neg, sin_neg. mring. Qed.
Lemma zero_xyz : rotmat3dx 0 = ident /\ rotmat3dy 0 = ident /\ rotmat3dz 0 = ident.
Proof.
  rewrite rotmat3dx_R, rotmat3dy_R, rotmat3dz_R, sin_0, cos_0, Ropp_0. repeat split; reflexivity.
Qed.
(** Two angles give the same matrix exactly when they differ by whole turns:
    equality of matrices is equality of cosine and sine. *)
Lemma same_angle a b : (cos a = cos b /\ sin a = sin b) <-> rotmat3dz a = rotmat3dz b.
Proof.
  rewrite !rotmat3dz_R. split; [intros [-> ->]; reflexivity|]. intros H. injection H. auto.
Qed.
