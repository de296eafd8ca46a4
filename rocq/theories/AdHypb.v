(** * AdHypb: forward-mode differentiation of [solve_kepler_hypb] (proofs for C89) *)
From Coq Require Import Reals ZArith Lia Lra Psatz List Bool.
From Coquelicot Require Import Coquelicot.
From Verif Require Import Num NumR NumD Spec SpecAd OrbIntegrals KepEqu RLib Ana Atan2 LoopFacts KepRows SolveFacts NewtonConvex SolveElps UFacts AdOps AdKep.
Local Open Scope R_scope.

Section Tangents.
  Variables (e N de dN : R).
  Definition hx (j : nat) : R := iterate (hypb_newton N e) j (hypb_guess N e).
  Definition hstep (x k : R) : R :=
    (dN - de * sinh x) / (e * cosh x - 1) + (e * sinh x - x - N) * (e * sinh x * k + de * cosh x) / (e * cosh x - 1) ^ 2.
  Definition hk0 : R := (2 * dN / e - 2 * N * de / e ^ 2) / cosh (hx 0).
  Fixpoint hk (j : nat) : R := match j with O => hk0 | S i => hstep (hx i) (hk i) end.
End Tangents.

Lemma cosh_arcsinh y : cosh (arcsinh y) = sqrt (y ^ 2 + 1).
Proof.
  pose proof (cosh_ge_1 (arcsinh y)) as P. symmetry. apply sqrt_lem_1; [nra|lra|]. pose proof (cosh_sinh_1 (arcsinh y)) as D. rewrite sinh_arcsinh in D. nra.
Qed.
Lemma hguess_D (n a : dual) : 1 < val a -> @hypb_guess _ Num_D n a = mkD (hypb_guess (val n) (val a)) (hk0 (val a) (val n) (tang a) (tang n)).
Proof.
  intro He. unfold hk0. change (hx (val a) (val n) 0) with (hypb_guess (val n) (val a)). rewrite hypb_guess_arcsinh, cosh_arcsinh.
  unfold hypb_guess. cbn. set (y := 2 * val n / val a).
  assert (Q : y * y + 1 = y ^ 2 + 1) by ring. rewrite Q. set (w := sqrt (y ^ 2 + 1)).
  assert (W : w * w = y ^ 2 + 1) by (unfold w; apply sqrt_sqrt; nra). assert (W0 : 0 < w) by (unfold w; apply sqrt_lt_R0; nra).
  assert (YW : 0 < y + w) by nra.
  apply D_eq; [reflexivity|]. unfold y in *. set (yy := 2 * val n / val a) in *.
  transitivity ((2 * tang n / val a - 2 * val n * tang a / val a ^ 2) * (1 + yy / w) / (yy + w)); [unfold Rdiv; field; split; [lra|split; [lra|unfold yy; apply Rgt_not_eq; unfold yy in YW; lra]]|].
  replace (sqrt (yy * (yy * 1) + 1)) with w by (unfold w; f_equal; ring). field. split; [lra|]. split; lra.
Qed.
Lemma hnewton_D (n a X : dual) : 1 < val a ->
  @hypb_newton _ Num_D n a X = mkD (hypb_newton (val n) (val a) (val X)) (hstep (val a) (val n) (tang a) (tang n) (val X) (tang X)).
Proof.
  intro He. pose proof (cosh_ge_1 (val X)) as P. assert (D : 0 < val a * cosh (val X) - 1) by nra. unfold hstep, hypb_newton, kepler_equ_hypb, dH. cbn. apply D_eq; [reflexivity|].
  field. lra.
Qed.
Lemma hiterate_D (n a : dual) j : 1 < val a ->
  iterate (@hypb_newton _ Num_D n a) j (@hypb_guess _ Num_D n a) = mkD (hx (val a) (val n) j) (hk (val a) (val n) (tang a) (tang n) j).
Proof. intro He. induction j as [|j IH]; [now apply hguess_D|]. cbn [iterate]. rewrite IH, hnewton_D by exact He. reflexivity. Qed.
Lemma hypb_D (n a : dual) : 1 < val a -> exists m, (m <= 50)%nat /\
  @solve_kepler_hypb _ Num_D n a (@default_tol _ Num_D) hypb_max_iter = mkD (hx (val a) (val n) m) (hk (val a) (val n) (tang a) (tang n) m) /\
  solve_kepler_hypb (val n) (val a) default_tol hypb_max_iter = hx (val a) (val n) m /\
  (forall j, (j < m)%nat -> / 1000000 < Rabs (kepler_equ_hypb (hx (val a) (val n) j) (val a) (val n))) /\
  (m = 50%nat \/ Rabs (kepler_equ_hypb (hx (val a) (val n) m) (val a) (val n)) <= / 1000000).
Proof.
  intro He. destruct (@hypb_char _ Num_D n a (@default_tol _ Num_D) hypb_max_iter) as [m [Hm [S1 [S2 S3]]]]. cbv zeta in *.
  change (Z.to_nat hypb_max_iter) with 50%nat in *.
  assert (HJ : forall j, @exceeds _ Num_D (@kepler_equ_hypb _ Num_D (iterate (@hypb_newton _ Num_D n a) j (@hypb_guess _ Num_D n a)) a n) (@default_tol _ Num_D)
     = exceeds (kepler_equ_hypb (hx (val a) (val n) j) (val a) (val n)) default_tol) by (intro j; rewrite hiterate_D by exact He; reflexivity).
  rewrite hiterate_D in S1 by exact He. exists m. split; [exact Hm|]. split; [exact S1|].
  assert (F : forall j, (j < m)%nat -> exceeds (kepler_equ_hypb (hx (val a) (val n) j) (val a) (val n)) default_tol = true) by (intros j L; rewrite <- HJ; auto).
  assert (G : m = 50%nat \/ exceeds (kepler_equ_hypb (hx (val a) (val n) m) (val a) (val n)) default_tol = false) by (rewrite <- HJ; exact S3).
  split; [|split].
  - destruct (hypb_char (val n) (val a) default_tol hypb_max_iter) as [k [Hk [R1 [R2 R3]]]]. cbv zeta in *. change (Z.to_nat hypb_max_iter) with 50%nat in *.
    fold (hx (val a) (val n) k) in R1, R3. assert (k = m) as ->; [|exact R1].
    destruct (lt_eq_lt_dec k m) as [[L|L]|L]; auto; exfalso.
    + specialize (F _ L). destruct R3 as [R3|R3]; [lia|]. congruence.
    + specialize (R2 _ L). fold (hx (val a) (val n) m) in R2. destruct G as [G|G]; [lia|]. congruence.
  - intros j L. specialize (F j L). apply exceeds_R in F. now rewrite default_tol_R in F.
  - destruct G as [G|G]; [now left|right]. apply exceeds_R_false in G. now rewrite default_tol_R in G.
Qed.

Lemma arcsinh_small y : Rabs (arcsinh y) <= Rabs y.
Proof.
  pose proof (bij_expand sinh cosh 1 Rlt_0_1 ltac:(intros; apply der_sinh) cosh_ge_1 (arcsinh y) 0) as B. rewrite sinh_0, sinh_arcsinh, !Rminus_0_r in B. lra.
Qed.
(** For small mean anomalies the guess is accepted. *)
Lemma hypb_small (n a : dual) : 1 < val a -> Rabs (val n) <= / 3000000 ->
  @solve_kepler_hypb _ Num_D n a (@default_tol _ Num_D) hypb_max_iter = @hypb_guess _ Num_D n a.
Proof.
  intros He Hn. destruct (hypb_D n a He) as [m [Hm [S1 [_ [F _]]]]]. rewrite hguess_D by exact He. rewrite S1. destruct m as [|m]; [reflexivity|]. exfalso.
  specialize (F 0%nat ltac:(lia)). change (hx (val a) (val n) 0) with (hypb_guess (val n) (val a)) in F. rewrite kepler_equ_hypb_R, hypb_guess_arcsinh, sinh_arcsinh in F.
  replace (val a * (2 * val n / val a) - arcsinh (2 * val n / val a) - val n) with (val n - arcsinh (2 * val n / val a)) in F by (field; lra).
  pose proof (arcsinh_small (2 * val n / val a)) as A. assert (B : Rabs (2 * val n / val a) <= 2 * Rabs (val n)).
  { unfold Rdiv. rewrite !Rabs_mult, Rabs_inv, (Rabs_pos_eq 2), (Rabs_pos_eq (val a)) by lra. pose proof (Rabs_pos (val n)).
    assert (/ val a <= 1) by (rewrite <- Rinv_1; apply Rinv_le_contravar; lra). nra. }
  unfold Rminus in F. pose proof (Rabs_triang (val n) (- arcsinh (2 * val n / val a))) as T. rewrite Rabs_Ropp in T. lra.
Qed.
Lemma hypb_small_guess (N e : R -> R) (s : R) (dN de : dual) : 1 < e s -> Rabs (N s) <= / 3000000 -> carries N s dN -> carries e s de ->
  carries (fun u => arcsinh (2 * N u / e u)) s (@solve_kepler_hypb _ Num_D dN de (@default_tol _ Num_D) hypb_max_iter).
Proof.
  intros He HN [N0 N1] [e0 e1]. rewrite hypb_small by congruence. unfold hypb_guess.
  assert (Y : carries (fun u => n_div (n_mul (n_Z 2) (N u)) (e u)) s (@n_div _ Num_D (@n_mul _ Num_D (@n_Z _ Num_D 2) dN) de)).
  { apply a_div; [apply a_mul; [apply a_Z|now split]|now split|lra]. }
  assert (W : forall y : R, 0 < y * y + 1) by (intro; nra).
  assert (Z : forall y : R, 0 < y + sqrt (y * y + 1)).
  { intro y. assert (Rabs y < sqrt (y * y + 1)). { rewrite <- sqrt_Rsqr_abs. apply sqrt_lt_1; unfold Rsqr; nra. } pose proof (Rle_abs (- y)) as V. rewrite Rabs_Ropp in V. lra. }
  eapply a_ext; [|apply a_log; [apply a_add; [exact Y|apply a_sqrt; [apply a_add; [apply (a_pow 2); exact Y|apply a_Z]|]]|]].
  - intro u. cbv beta. unfold arcsinh. cbn. do 3 f_equal. ring.
  - cbv beta. cbn. apply W.
  - cbv beta. cbn. apply Z.
Qed.

(** The true slope at [N = 0]. *)
Lemma hypb_root_der (e : R) (root : R -> R) : 1 < e -> locally 0 (fun u => e * sinh (root u) - root u = u) -> is_derive root 0 (/ (e - 1)).
Proof.
  intros He [d0 HR]. assert (F : is_derive (fun y : R => kepler_equ_hypb y e 0) 0 (e - 1)).
  { apply (der_eq _ _ (dH 0 e)); [apply hypb_deriv|]. rewrite dH_R, cosh_0. ring. }
  assert (R0 : root 0 = 0).
  { assert (H : e * sinh (root 0) - root 0 = 0) by (apply HR, ball_center). pose proof (hypb_residual_dist e 0 (root 0) 0 He ltac:(rewrite kepler_equ_hypb_R, sinh_0; ring)) as B.
    rewrite kepler_equ_hypb_R, H, !Rminus_0_r, Rabs_R0 in B. apply Rabs_eq_0. pose proof (Rabs_pos (root 0)). nra. }
  apply is_derive_Reals in F. apply is_derive_Reals. intros eps Heps.
  assert (q0 : 0 < e - 1) by lra. assert (E2 : 0 < eps * (e - 1) * (e - 1)) by (repeat apply Rmult_lt_0_compat; assumption).
  destruct (F _ E2) as [d1 F1].
  assert (D1 : 0 < (e - 1) * d1) by (apply Rmult_lt_0_compat; [assumption|apply cond_pos]).
  assert (Dp : 0 < Rmin d0 ((e - 1) * d1)) by (apply Rmin_pos; [apply cond_pos|exact D1]).
  exists (mkposreal _ Dp). intros h Hh Hl. cbn [pos] in Hl. rewrite Rplus_0_l, R0, Rminus_0_r.
  assert (L0 : Rabs h < d0) by (eapply Rlt_le_trans; [exact Hl|apply Rmin_l]). assert (L1 : Rabs h < (e - 1) * d1) by (eapply Rlt_le_trans; [exact Hl|apply Rmin_r]).
  assert (Hr : e * sinh (root h) - root h = h) by (apply HR; change (Rabs (h - 0) < d0); now rewrite Rminus_0_r).
  pose proof (hypb_residual_dist e 0 (root h) 0 He ltac:(rewrite kepler_equ_hypb_R, sinh_0; ring)) as B. rewrite kepler_equ_hypb_R, Hr, !Rminus_0_r in B.
  set (y := root h) in *. assert (Y0 : y <> 0) by (intros Z; rewrite Z, sinh_0 in Hr; lra).
  assert (Yd : Rabs y < d1) by nra. specialize (F1 y Y0 Yd). rewrite Rplus_0_l, !kepler_equ_hypb_R, sinh_0 in F1.
  replace ((e * sinh y - y - 0 - (e * 0 - 0 - 0)) / y) with (h / y) in F1 by (rewrite <- Hr at 1; field; assumption).
  set (Q := h / y) in *. assert (QY : y / h = / Q) by (unfold Q; field; split; assumption). rewrite QY.
  assert (Qa : e - 1 <= Rabs Q). { unfold Q, Rdiv. rewrite Rabs_mult, Rabs_inv. apply Rmult_le_reg_r with (Rabs y); [now apply Rabs_pos_lt|]. rewrite Rmult_assoc, Rinv_l by now apply Rabs_no_R0. lra. }
  assert (Q0 : Q <> 0) by (intros Z; rewrite Z, Rabs_R0 in Qa; lra).
  replace (/ Q - / (e - 1)) with (- (Q - (e - 1)) / (Q * (e - 1))) by (field; split; lra).
  unfold Rdiv. rewrite Rabs_mult, Rabs_Ropp, Rabs_inv, Rabs_mult, (Rabs_pos_eq (e - 1)) by lra.
  apply Rmult_lt_reg_r with (Rabs Q * (e - 1)); [apply Rmult_lt_0_compat; lra|]. rewrite Rmult_assoc, Rinv_l by (apply Rmult_integral_contrapositive; split; lra).
  rewrite Rmult_1_r. apply Rlt_le_trans with (1 := F1). rewrite Rmult_assoc. apply Rmult_le_compat_l; [lra|]. apply Rmult_le_compat_r; lra.
Qed.
Lemma hypb_lt (e x y : R) : 1 < e -> x < y -> e * sinh x - x < e * sinh y - y.
Proof.
  intros He L. apply (der_pos_incr (fun t => kepler_equ_hypb t e 0) (fun t => dH t e)) in L; [cbv beta in L; rewrite !kepler_equ_hypb_R in L; lra|intros; apply hypb_deriv|].
  intro t. pose proof (dH_lower t e ltac:(lra)). lra.
Qed.
Lemma hypb_jvp_wrong (e : R) : 1 < e -> e <> 2 ->
  let o := @solve_kepler_hypb _ Num_D (mkD 0 1) (konst e) (@default_tol _ Num_D) hypb_max_iter in
  val o = 0 /\ tang o = 2 / e /\
  (exists root : R -> R, locally 0 (fun u => e * sinh (root u) - root u = u)) /\
  forall root : R -> R, locally 0 (fun u => e * sinh (root u) - root u = u) -> is_derive root 0 (/ (e - 1)) /\ tang o <> / (e - 1).
Proof.
  intros He H2 o. unfold o. rewrite hypb_small by (cbn [val konst]; try exact He; rewrite Rabs_R0; lra). rewrite hguess_D by exact He. cbn [val tang konst].
  assert (G : hypb_guess 0 e = 0). { rewrite hypb_guess_arcsinh. apply sinh_inj. rewrite sinh_arcsinh, sinh_0. field. lra. }
  assert (K : hk0 e 0 0 1 = 2 / e). { unfold hk0. change (hx e 0 0) with (hypb_guess 0 e). rewrite G, cosh_0. field. lra. }
  split; [exact G|]. split; [exact K|]. split.
  - exists (fun u => real (Lub_Rbar (fun x => e * sinh x - x <= u))). apply filter_forall. intro u. cbv beta.
    destruct (hypb_unique e u He) as [x [Hx _]]. rewrite kepler_equ_hypb_R in Hx.
    rewrite (is_lub_Rbar_unique _ (Finite x)); [cbn [real]; lra|]. split.
    + intros y Hy. cbn [Rbar_le]. apply Rnot_lt_le. intros L. pose proof (hypb_lt e x y He L). lra.
    + intros b Hb. apply Hb. lra.
  - intros root HR. split; [now apply hypb_root_der|]. rewrite K. intros Z. apply H2. apply (f_equal (fun z => z * (e * (e - 1)))) in Z. field_simplify in Z; lra.
Qed.

(** What is returned in general. *)
Lemma hypb_jvp (dN de : dual) : 1 < val de -> let N := val dN in let e := val de in
  let o := @solve_kepler_hypb _ Num_D dN de (@default_tol _ Num_D) hypb_max_iter in
  exists (n : nat) (x k : nat -> R), (n <= 50)%nat /\ o = mkD (x n) (k n) /\ x n = solve_kepler_hypb N e default_tol hypb_max_iter /\
    sinh (x 0%nat) = 2 * N / e /\ k 0%nat = (2 * tang dN / e - 2 * N * tang de / e ^ 2) / cosh (x 0%nat) /\
    (forall j, let f := e * sinh (x j) - x j - N in let f' := e * cosh (x j) - 1 in
      x (S j) = x j - f / f' /\
      k (S j) = (tang dN - tang de * sinh (x j)) / f' + f * (e * sinh (x j) * k j + tang de * cosh (x j)) / f' ^ 2) /\
    (forall j, (j < n)%nat -> / 1000000 < Rabs (e * sinh (x j) - x j - N)) /\
    (n = 50%nat \/ Rabs (e * sinh (x n) - x n - N) <= / 1000000).
Proof.
  intros He N e o. destruct (hypb_D dN de He) as [m [Hm [S1 [S2 [F G]]]]]. exists m, (hx e N), (hk e N (tang de) (tang dN)).
  split; [exact Hm|]. split; [exact S1|]. split; [symmetry; exact S2|]. split; [change (sinh (hypb_guess N e) = 2 * N / e); rewrite hypb_guess_arcsinh; apply sinh_arcsinh|].
  split; [reflexivity|]. split; [intro j; split; reflexivity|]. split; [exact F|exact G].
Qed.
