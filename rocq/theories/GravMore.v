(** * GravMore: divergence, symmetry, conserved quantities and the radius event (C39-C43, C50) *)
From Coq Require Import Reals Lra Lia Psatz List String ZArith Ranalysis5.
From Coquelicot Require Import Coquelicot.
From Verif Require Import Num NumR Spec SpecGrav RLib Ana TwoBody RotMat RotFacts Gravity GravFacts.
Import ListNotations.
Local Open Scope R_scope.

(** ** Divergence *)
Lemma curve_x x y z : vderive (fun s => mk3 s y z) x (mk3 1 0 0).
Proof. split; [|split]; cbn [c0 c1 c2]; auto using der_id, der_const. Qed.
Lemma curve_y x y z : vderive (fun s => mk3 x s z) y (mk3 0 1 0).
Proof. split; [|split]; cbn [c0 c1 c2]; auto using der_id, der_const. Qed.
Lemma curve_z x y z : vderive (fun s => mk3 x y s) z (mk3 0 0 1).
Proof. split; [|split]; cbn [c0 c1 c2]; auto using der_id, der_const. Qed.

Section Div.
  Variables (x y z : R).
  Let q := mk3 x y z.
  Hypothesis Hq : q <> vzero.
  Let n := vnorm q.
  Lemma n_pos' : 0 < n. Proof. now apply vnorm_pos. Qed.
  Lemma n_sq' : n ^ 2 = x ^ 2 + y ^ 2 + z ^ 2.
  Proof. unfold n. rewrite vnorm_sq2. unfold dot, q; cbn [c0 c1 c2]. ring. Qed.
  (** Terms  a z^j / n^k  with a = x, y or 1. *)
  Lemma tx j k : is_derive (fun s : R => s * (z ^ j * / vnorm (mk3 s y z) ^ k)) x
    (z ^ j * / n ^ k - INR k * x ^ 2 * z ^ j / n ^ (k + 2)).
  Proof.
    pose proof n_pos' as Hn.
    eapply der_eq.
    - apply (der_mult (fun s : R => s) (fun s => z ^ j * / vnorm (mk3 s y z) ^ k)); [apply der_id|].
      apply der_scal. apply (dpow q Hq (fun s => mk3 s y z) x (mk3 1 0 0) eq_refl (curve_x x y z)).
    - cbv beta. fold q n. unfold dot, q; cbn [c0 c1 c2].
      rewrite !pow_add. assert (n ^ k <> 0) by (apply pow_nonzero; lra). field. split; lra.
  Qed.
  Lemma ty j k : is_derive (fun s : R => s * (z ^ j * / vnorm (mk3 x s z) ^ k)) y
    (z ^ j * / n ^ k - INR k * y ^ 2 * z ^ j / n ^ (k + 2)).
  Proof.
    pose proof n_pos' as Hn.
    eapply der_eq.
    - apply (der_mult (fun s : R => s) (fun s => z ^ j * / vnorm (mk3 x s z) ^ k)); [apply der_id|].
      apply der_scal. apply (dpow q Hq (fun s => mk3 x s z) y (mk3 0 1 0) eq_refl (curve_y x y z)).
    - cbv beta. fold q n. unfold dot, q; cbn [c0 c1 c2].
      rewrite !pow_add. assert (n ^ k <> 0) by (apply pow_nonzero; lra). field. split; lra.
  Qed.
  Lemma tz j k : is_derive (fun s : R => s ^ j * / vnorm (mk3 x y s) ^ k) z
    (INR j * z ^ pred j * / n ^ k - INR k * z ^ (j + 1) / n ^ (k + 2)).
  Proof.
    pose proof n_pos' as Hn.
    eapply der_eq.
    - apply (dzr q Hq (fun s => mk3 x y s) z (mk3 0 0 1) eq_refl (curve_z x y z) j k).
    - unfold dot, q; cbn [c0 c1 c2]. fold q n.
      rewrite !pow_add. assert (n ^ k <> 0) by (apply pow_nonzero; lra). field. split; lra.
  Qed.
End Div.

(** Away from the origin the model forms are combinations of such terms. *)
Lemma nz_x x y z : mk3 x y z <> vzero -> locally x (fun s : R => mk3 s y z <> vzero).
Proof. intros H. apply (near_nonzero (fun s => mk3 s y z) x _ (curve_x x y z) H). Qed.
Lemma nz_y x y z : mk3 x y z <> vzero -> locally y (fun s : R => mk3 x s z <> vzero).
Proof. intros H. apply (near_nonzero (fun s => mk3 x s z) y _ (curve_y x y z) H). Qed.
Lemma nz_z x y z : mk3 x y z <> vzero -> locally z (fun s : R => mk3 x y s <> vzero).
Proof. intros H. apply (near_nonzero (fun s => mk3 x y s) z _ (curve_z x y z) H). Qed.
Lemma der_near (P : R -> Prop) (f g : R -> R) a l :
  locally a P -> (forall s, P s -> f s = g s) -> is_derive f a l -> is_derive g a l.
Proof. intros L E D. eapply is_derive_ext_loc; [|exact D]. eapply filter_imp; [|exact L]. auto. Qed.

Lemma div_pm mu q : q <> vzero -> divergence (gravity mu) q 0.
Proof.
  destruct q as [x y z]. intros Hq. pose proof (n_pos' x y z Hq) as Hn. pose proof (n_sq' x y z) as Hs.
  unfold divergence; cbn [c0 c1 c2].
  do 3 eexists. split; [|split; [|split]].
  - apply (der_near _ (fun s => - mu * (s * (z ^ 0 * / vnorm (mk3 s y z) ^ 3))) _ _ _ (nz_x x y z Hq)).
    + intros s Hs'. pose proof (vnorm_pos _ Hs'). unfold gravity, smul; cbn [c0 c1 c2]. rewrite ?pow_O. field. lra.
    + apply der_scal, (tx x y z Hq).
  - apply (der_near _ (fun s => - mu * (s * (z ^ 0 * / vnorm (mk3 x s z) ^ 3))) _ _ _ (nz_y x y z Hq)).
    + intros s Hs'. pose proof (vnorm_pos _ Hs'). unfold gravity, smul; cbn [c0 c1 c2]. rewrite ?pow_O. field. lra.
    + apply der_scal, (ty x y z Hq).
  - apply (der_near _ (fun s => - mu * (s ^ 1 * / vnorm (mk3 x y s) ^ 3)) _ _ _ (nz_z x y z Hq)).
    + intros s Hs'. pose proof (vnorm_pos _ Hs'). unfold gravity, smul; cbn [c0 c1 c2]. rewrite ?pow_O. field. lra.
    + apply der_scal, (tz x y z Hq).
  - inrs. rewrite ?pow_O. set (n := vnorm (mk3 x y z)) in *. clearbody n.
    replace (x ^ 2) with (n ^ 2 - y ^ 2 - z ^ 2) by lra. field. lra.
Qed.

Lemma div_j2 mu J Req q : q <> vzero -> divergence (j2R mu J Req) q 0.
Proof.
  destruct q as [x y z]. intros Hq. pose proof (n_pos' x y z Hq) as Hn. pose proof (n_sq' x y z) as Hs.
  unfold divergence; cbn [c0 c1 c2]. set (K := - (3 / 2) * mu * J * Req ^ 2).
  do 3 eexists. split; [|split; [|split]].
  - apply (der_near _ (fun s => K * (s * (z ^ 0 * / vnorm (mk3 s y z) ^ 5) - 5 * (s * (z ^ 2 * / vnorm (mk3 s y z) ^ 7)))) _ _ _ (nz_x x y z Hq)).
    + intros s Hs'. pose proof (vnorm_pos _ Hs'). unfold j2R, K; cbn [c0 c1 c2]. rewrite ?pow_O. field. lra.
    + apply der_scal, der_minus; [|apply der_scal]; apply (tx x y z Hq).
  - apply (der_near _ (fun s => K * (s * (z ^ 0 * / vnorm (mk3 x s z) ^ 5) - 5 * (s * (z ^ 2 * / vnorm (mk3 x s z) ^ 7)))) _ _ _ (nz_y x y z Hq)).
    + intros s Hs'. pose proof (vnorm_pos _ Hs'). unfold j2R, K; cbn [c0 c1 c2]. rewrite ?pow_O. field. lra.
    + apply der_scal, der_minus; [|apply der_scal]; apply (ty x y z Hq).
  - apply (der_near _ (fun s => K * (3 * (s ^ 1 * / vnorm (mk3 x y s) ^ 5) - 5 * (s ^ 3 * / vnorm (mk3 x y s) ^ 7))) _ _ _ (nz_z x y z Hq)).
    + intros s Hs'. pose proof (vnorm_pos _ Hs'). unfold j2R, K; cbn [c0 c1 c2]. rewrite ?pow_O. field. lra.
    + apply der_scal, der_minus; apply der_scal; apply (tz x y z Hq).
  - inrs. rewrite ?pow_O. set (n := vnorm (mk3 x y z)) in *. clearbody n K.
    replace (x ^ 2) with (n ^ 2 - y ^ 2 - z ^ 2) by lra. field. lra.
Qed.
Lemma div_j3 mu J Req q : q <> vzero -> divergence (j3R mu J Req) q 0.
Proof.
  destruct q as [x y z]. intros Hq. pose proof (n_pos' x y z Hq) as Hn. pose proof (n_sq' x y z) as Hs.
  unfold divergence; cbn [c0 c1 c2]. set (K := - (5 / 2) * mu * J * Req ^ 3).
  do 3 eexists. split; [|split; [|split]].
  - apply (der_near _ (fun s => K * (3 * (s * (z ^ 1 * / vnorm (mk3 s y z) ^ 7)) - 7 * (s * (z ^ 3 * / vnorm (mk3 s y z) ^ 9)))) _ _ _ (nz_x x y z Hq)).
    + intros s Hs'. pose proof (vnorm_pos _ Hs'). unfold j3R, K; cbn [c0 c1 c2]. rewrite ?pow_O. field. lra.
    + apply der_scal, der_minus; apply der_scal; apply (tx x y z Hq).
  - apply (der_near _ (fun s => K * (3 * (s * (z ^ 1 * / vnorm (mk3 x s z) ^ 7)) - 7 * (s * (z ^ 3 * / vnorm (mk3 x s z) ^ 9)))) _ _ _ (nz_y x y z Hq)).
    + intros s Hs'. pose proof (vnorm_pos _ Hs'). unfold j3R, K; cbn [c0 c1 c2]. rewrite ?pow_O. field. lra.
    + apply der_scal, der_minus; apply der_scal; apply (ty x y z Hq).
  - apply (der_near _ (fun s => K * (6 * (s ^ 2 * / vnorm (mk3 x y s) ^ 7) - 7 * (s ^ 4 * / vnorm (mk3 x y s) ^ 9)
        - 3 / 5 * (s ^ 0 * / vnorm (mk3 x y s) ^ 5))) _ _ _ (nz_z x y z Hq)).
    + intros s Hs'. pose proof (vnorm_pos _ Hs'). unfold j3R, K; cbn [c0 c1 c2]. rewrite ?pow_O. field. lra.
    + apply der_scal, der_minus; [apply der_minus|]; apply der_scal; apply (tz x y z Hq).
  - inrs. rewrite ?pow_O. set (n := vnorm (mk3 x y z)) in *. clearbody n K.
    replace (x ^ 2) with (n ^ 2 - y ^ 2 - z ^ 2) by lra. field. lra.
Qed.
Lemma div_j4 mu J Req q : q <> vzero -> divergence (j4R mu J Req) q 0.
Proof.
  destruct q as [x y z]. intros Hq. pose proof (n_pos' x y z Hq) as Hn. pose proof (n_sq' x y z) as Hs.
  unfold divergence; cbn [c0 c1 c2]. set (K := 15 / 8 * mu * J * Req ^ 4).
  do 3 eexists. split; [|split; [|split]].
  - apply (der_near _ (fun s => K * (s * (z ^ 0 * / vnorm (mk3 s y z) ^ 7) - 14 * (s * (z ^ 2 * / vnorm (mk3 s y z) ^ 9))
        + 21 * (s * (z ^ 4 * / vnorm (mk3 s y z) ^ 11)))) _ _ _ (nz_x x y z Hq)).
    + intros s Hs'. pose proof (vnorm_pos _ Hs'). unfold j4R, K; cbn [c0 c1 c2]. rewrite ?pow_O. field. lra.
    + apply der_scal, der_plus; [apply der_minus; [|apply der_scal]|apply der_scal]; apply (tx x y z Hq).
  - apply (der_near _ (fun s => K * (s * (z ^ 0 * / vnorm (mk3 x s z) ^ 7) - 14 * (s * (z ^ 2 * / vnorm (mk3 x s z) ^ 9))
        + 21 * (s * (z ^ 4 * / vnorm (mk3 x s z) ^ 11)))) _ _ _ (nz_y x y z Hq)).
    + intros s Hs'. pose proof (vnorm_pos _ Hs'). unfold j4R, K; cbn [c0 c1 c2]. rewrite ?pow_O. field. lra.
    + apply der_scal, der_plus; [apply der_minus; [|apply der_scal]|apply der_scal]; apply (ty x y z Hq).
  - apply (der_near _ (fun s => K * (5 * (s ^ 1 * / vnorm (mk3 x y s) ^ 7) - 70 / 3 * (s ^ 3 * / vnorm (mk3 x y s) ^ 9)
        + 21 * (s ^ 5 * / vnorm (mk3 x y s) ^ 11))) _ _ _ (nz_z x y z Hq)).
    + intros s Hs'. pose proof (vnorm_pos _ Hs'). unfold j4R, K; cbn [c0 c1 c2]. rewrite ?pow_O. field. lra.
    + apply der_scal, der_plus; [apply der_minus|]; apply der_scal; apply (tz x y z Hq).
  - inrs. rewrite ?pow_O. set (n := vnorm (mk3 x y z)) in *. clearbody n K.
    replace (x ^ 2) with (n ^ 2 - y ^ 2 - z ^ 2) by lra. field. lra.
Qed.

(** ** Direction and size of the point mass attraction *)
Lemma pm_size mu q : q <> vzero -> vnorm (gravity mu q) = Rabs mu / vnorm q ^ 2.
Proof.
  intros H. pose proof (vnorm_pos q H). unfold gravity. rewrite vnorm_smul, Rabs_Ropp.
  unfold Rdiv at 1. rewrite Rabs_mult, Rabs_inv, (Rabs_pos_eq (vnorm q ^ 3)).
  field. lra. apply pow_le. lra.
Qed.

(** ** Symmetries (C41) *)
Lemma zrot_z a q : c2 (row_col (rotmat3dz a) q) = c2 q.
Proof. rewrite rotmat3dz_R. unfold row_col, dot; cbn [c0 c1 c2]. ring. Qed.
Lemma zrot_n a q : vnorm (row_col (rotmat3dz a) q) = vnorm q.
Proof. apply rot_norm, rot_z. Qed.
Lemma rot_gravity A mu q : rotation A -> gravity mu (row_col A q) = row_col A (gravity mu q).
Proof. intros H. unfold gravity. now rewrite rot_norm, row_col_smul. Qed.
Lemma rot_j2 a mu J Req q : j2R mu J Req (row_col (rotmat3dz a) q) = row_col (rotmat3dz a) (j2R mu J Req q).
Proof.
  unfold j2R. rewrite zrot_n, zrot_z. set (n := vnorm q). clearbody n. rewrite rotmat3dz_R.
  unfold row_col, dot; cbn [c0 c1 c2]. unfold Rdiv. apply mk3_eq; ring.
Qed.
Lemma rot_j3 a mu J Req q : j3R mu J Req (row_col (rotmat3dz a) q) = row_col (rotmat3dz a) (j3R mu J Req q).
Proof.
  unfold j3R. rewrite zrot_n, zrot_z. set (n := vnorm q). clearbody n. rewrite rotmat3dz_R.
  unfold row_col, dot; cbn [c0 c1 c2]. unfold Rdiv. apply mk3_eq; ring.
Qed.
Lemma rot_j4 a mu J Req q : j4R mu J Req (row_col (rotmat3dz a) q) = row_col (rotmat3dz a) (j4R mu J Req q).
Proof.
  unfold j4R. rewrite zrot_n, zrot_z. set (n := vnorm q). clearbody n. rewrite rotmat3dz_R.
  unfold row_col, dot; cbn [c0 c1 c2]. unfold Rdiv. apply mk3_eq; ring.
Qed.
Definition mirror (q : vec) : vec := mk3 (c0 q) (c1 q) (- c2 q).
Lemma mirror_n q : vnorm (mirror q) = vnorm q.
Proof. unfold vnorm, dot, mirror; cbn [c0 c1 c2]. f_equal. ring. Qed.
Lemma mirror_pm mu q : gravity mu (mirror q) = mirror (gravity mu q).
Proof. unfold gravity. rewrite mirror_n. unfold smul, mirror; cbn [c0 c1 c2]. apply mk3_eq; ring. Qed.
Lemma sq_opp a b : (- a / b) ^ 2 = (a / b) ^ 2.
Proof. unfold Rdiv. ring. Qed.
Lemma mirror_j2 mu J Req q : j2R mu J Req (mirror q) = mirror (j2R mu J Req q).
Proof. unfold j2R. rewrite mirror_n. unfold mirror; cbn [c0 c1 c2]. rewrite sq_opp. apply mk3_eq; ring. Qed.
Lemma mirror_j4 mu J Req q : j4R mu J Req (mirror q) = mirror (j4R mu J Req q).
Proof. unfold j4R. rewrite mirror_n. unfold mirror; cbn [c0 c1 c2]. rewrite sq_opp. apply mk3_eq; ring. Qed.
Lemma mirror_j3 mu J Req q : j3R mu J Req (mirror q) = smul (-1) (mirror (j3R mu J Req q)).
Proof.
  unfold j3R. rewrite mirror_n. unfold mirror, smul; cbn [c0 c1 c2].
  replace ((- c2 q) ^ 3 / vnorm q ^ 2) with (- (c2 q ^ 3 / vnorm q ^ 2)) by (unfold Rdiv; ring).
  apply mk3_eq; ring.
Qed.
Lemma torque_pm mu q : cross q (gravity mu q) = vzero.
Proof. unfold gravity. destruct q as [x y z]. unfold cross, smul, vzero; cbn [c0 c1 c2]. apply mk3_eq; ring. Qed.
Lemma torque_j2 mu J Req q : c2 (cross q (j2R mu J Req q)) = 0.
Proof. unfold j2R, cross; cbn [c0 c1 c2]. ring. Qed.
Lemma torque_j3 mu J Req q : c2 (cross q (j3R mu J Req q)) = 0.
Proof. unfold j3R, cross; cbn [c0 c1 c2]. ring. Qed.
Lemma torque_j4 mu J Req q : c2 (cross q (j4R mu J Req q)) = 0.
Proof. unfold j4R, cross; cbn [c0 c1 c2]. ring. Qed.

(** ** Conserved quantities of the perturbed motion (C50) *)
Definition total_acc (mu J2 J3 J4 Req : R) (q : vec) : vec :=
  vplus (vplus (vplus (gravity mu q) (j2R mu J2 Req q)) (j3R mu J3 Req q)) (j4R mu J4 Req q).
Definition total_pot (mu J2 J3 J4 Req : R) (q : vec) : R :=
  kepler_potential mu q + zonal 2 mu J2 Req q + zonal 3 mu J3 Req q + zonal 4 mu J4 Req q.
Lemma grad_total mu J2 J3 J4 Req q : q <> vzero ->
  gradient (total_pot mu J2 J3 J4 Req) q (total_acc mu J2 J3 J4 Req q).
Proof.
  intros H c t w Hc Hw. unfold total_pot, total_acc. rewrite !dot_plus_l.
  apply (der_plus (fun s => kepler_potential mu (c s) + zonal 2 mu J2 Req (c s) + zonal 3 mu J3 Req (c s)));
  [apply (der_plus (fun s => kepler_potential mu (c s) + zonal 2 mu J2 Req (c s)));
   [apply (der_plus (fun s => kepler_potential mu (c s)))|]|].
  - now apply (grad_pm mu q H).
  - now apply (grad_j2 mu J2 Req q H).
  - now apply (grad_j3 mu J3 Req q H).
  - now apply (grad_j4 mu J4 Req q H).
Qed.
Section Motion.
  Variables (mu J2 J3 J4 Req : R) (r v : R -> vec).
  Hypothesis Hm : forall t, r t <> vzero /\ vderive r t (v t) /\
    vderive v t (total_acc mu J2 J3 J4 Req (r t)).
  Lemma energy_const a b :
    dot (v a) (v a) / 2 - total_pot mu J2 J3 J4 Req (r a) = dot (v b) (v b) / 2 - total_pot mu J2 J3 J4 Req (r b).
  Proof.
    apply (der_zero_const (fun t => dot (v t) (v t) / 2 - total_pot mu J2 J3 J4 Req (r t))).
    intros t. destruct (Hm t) as (Hn & Hr & Hv).
    eapply der_eq.
    - apply (der_minus (fun t => dot (v t) (v t) / 2) (fun t => total_pot mu J2 J3 J4 Req (r t))).
      + unfold Rdiv. apply (der_scal_r (fun t => dot (v t) (v t))).
        unfold dot. destruct Hv as (A & B & C). apply der_plus; [apply der_plus|];
          (eapply (der_mult _ _ t); eassumption).
      + apply (grad_total mu J2 J3 J4 Req (r t) Hn r t (v t) eq_refl Hr).
    - cbv beta. unfold dot. field.
  Qed.
  Lemma hz_const a b : c2 (cross (r a) (v a)) = c2 (cross (r b) (v b)).
  Proof.
    apply (der_zero_const (fun t => c2 (cross (r t) (v t)))).
    intros t. destruct (Hm t) as (Hn & Hr & Hv).
    assert (T : c2 (cross (r t) (total_acc mu J2 J3 J4 Req (r t))) = 0).
    { pose proof (f_equal c2 (torque_pm mu (r t))) as T1. pose proof (torque_j2 mu J2 Req (r t)) as T2.
      pose proof (torque_j3 mu J3 Req (r t)) as T3. pose proof (torque_j4 mu J4 Req (r t)) as T4.
      unfold total_acc, cross, vplus, vzero in *; cbn [c0 c1 c2] in *. lra. }
    destruct Hr as (A & B & C), Hv as (D & E & F).
    unfold cross in T |- *; cbn [c0 c1 c2] in T |- *.
    eapply der_eq.
    - apply der_minus; (eapply (der_mult _ _ t); eassumption).
    - cbv beta. lra.
  Qed.
End Motion.

(** ** The radius event (C43) *)
Lemma cont_vnorm (r : R -> vec) t :
  continuity_pt (fun s => c0 (r s)) t -> continuity_pt (fun s => c1 (r s)) t ->
  continuity_pt (fun s => c2 (r s)) t -> continuity_pt (fun s => vnorm (r s)) t.
Proof.
  intros A B C. unfold vnorm.
  apply (continuity_pt_comp (fun s => dot (r s) (r s)) sqrt).
  - unfold dot. repeat apply continuity_pt_plus; apply continuity_pt_mult; auto.
  - apply continuity_pt_sqrt, dot_nonneg.
Qed.
Lemma crossing (r : R -> vec) (a b rmin : R) : a < b ->
  (forall t, a <= t <= b -> continuity_pt (fun s => c0 (r s)) t /\
     continuity_pt (fun s => c1 (r s)) t /\ continuity_pt (fun s => c2 (r s)) t) ->
  rmin < vnorm (r a) -> vnorm (r b) < rmin -> exists t, a < t < b /\ vnorm (r t) - rmin = 0.
Proof.
  intros Hab Hc Ha Hb.
  destruct (IVT_interv (fun t => rmin - vnorm (r t)) a b) as [t [Ht E]]; try lra.
  - intros t Ht. destruct (Hc t Ht) as (A & B & C). apply continuity_pt_minus.
    + apply continuity_pt_const. intros x y. reflexivity.
    + now apply cont_vnorm.
  - cbv beta in E. exists t. split; [|lra].
    split; (destruct (Req_dec t a) as [->|]; [lra|]; destruct (Req_dec t b) as [->|]; [lra|]; lra).
Qed.
