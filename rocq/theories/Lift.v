(** * Lift: transferring exact-real results to arithmetics with exceptional values

    An arithmetic [N] on [T] extends the reals through [f] if its operations agree with the real
    ones wherever those are defined.  Each function of the model then agrees with its real
    version as long as no division by zero, root of a negative number, ... is met. *)
From Coq Require Import Reals Lra Lia Psatz ZArith List.
From Coquelicot Require Import Coquelicot.
From Verif Require Import Num NumR NumX Spec RLib RotMat Uniformulas Lagrange OrbIntegrals KepEqu StateTrans
  OrbElements PathCheck PropKepler Gravity.
Import ListNotations.
Local Open Scope R_scope.

Record Embeds {T : Type} (N : Num T) (f : R -> T) : Prop := mkEmbeds {
  e_Z : forall z, @n_Z T N z = f (IZR z);
  e_dec : forall p q, @n_dec T N p q = f (IZR p / IZR (Zpos q));
  e_pi : @n_pi T N = f PI;
  e_add : forall a b, n_add (f a) (f b) = f (a + b);
  e_sub : forall a b, n_sub (f a) (f b) = f (a - b);
  e_mul : forall a b, n_mul (f a) (f b) = f (a * b);
  e_div : forall a b, b <> 0 -> n_div (f a) (f b) = f (a / b);
  e_neg : forall a, n_neg (f a) = f (- a);
  e_abs : forall a, n_abs (f a) = f (Rabs a);
  e_sqrt : forall a, 0 <= a -> n_sqrt (f a) = f (sqrt a);
  e_cbrt : forall a, n_cbrt (f a) = f (cbrt a);
  e_sin : forall a, n_sin (f a) = f (sin a);
  e_cos : forall a, n_cos (f a) = f (cos a);
  e_sinh : forall a, n_sinh (f a) = f (sinh a);
  e_cosh : forall a, n_cosh (f a) = f (cosh a);
  e_log : forall a, 0 < a -> n_log (f a) = f (ln a);
  e_arccos : forall a, -1 <= a <= 1 -> n_arccos (f a) = f (acos a);
  e_arctan2 : forall a b, n_arctan2 (f a) (f b) = f (atan2 a b);
  e_floor : forall a, n_floor (f a) = f (floorR a);
  e_max : forall a b, n_max (f a) (f b) = f (Rmax a b);
  e_lt : forall a b, n_lt (f a) (f b) = ltb a b }.

Lemma embeds_X : Embeds Num_X Fin.
Proof.
  constructor; intros; simpl; auto.
  - destruct (Req_EM_T b 0); [contradiction|reflexivity].
  - destruct (Rlt_dec a 0); [lra|reflexivity].
  - destruct (Rlt_dec a 0); [lra|]. destruct (Req_EM_T a 0); [lra|reflexivity].
  - destruct (Rlt_dec a (-1)); [lra|]. destruct (Rlt_dec 1 a); [lra|reflexivity].
Qed.
Lemma embeds_S : Embeds Num_S Some.
Proof.
  constructor; intros; simpl; auto.
  - destruct (Req_EM_T b 0); [contradiction|reflexivity].
  - destruct (Rlt_dec a 0); [lra|reflexivity].
  - destruct (Rlt_dec 0 a); [reflexivity|lra].
  - destruct (Rlt_dec a (-1)); [lra|]. destruct (Rlt_dec 1 a); [lra|reflexivity].
Qed.

Lemma npow_R (x : R) n : npow x n = x ^ Pos.to_nat n.
Proof.
  unfold npow. assert (G : forall n acc x, npow_aux acc x n = match acc with None => 1 | Some a => a end * x ^ Pos.to_nat n).
  { clear. induction n as [n IH|n IH|]; intros acc x; cbn [npow_aux].
    - rewrite IH, Pos2Nat.inj_xI. change (n_mul x x) with (x * x). rewrite <- tech_pow_Rmult, pow_mult.
      replace (x ^ 2) with (x * x) by ring. destruct acc as [a|]; cbn [mul_opt];
      [change (n_mul a x) with (a * x)|]; ring.
    - rewrite IH, Pos2Nat.inj_xO. change (n_mul x x) with (x * x). rewrite pow_mult. replace (x ^ 2) with (x * x) by ring. reflexivity.
    - change (Pos.to_nat 1) with 1%nat. destruct acc as [a|]; cbn [mul_opt];
      [change (n_mul a x) with (a * x)|]; ring. }
  rewrite G. ring.
Qed.
Lemma npow_neq (x : R) n : x <> 0 -> npow x n <> 0.
Proof. intros. rewrite npow_R. now apply pow_nonzero. Qed.
Section Lift.
  Context {T : Type} {N : Num T}.
  Variable f : R -> T.
  Hypothesis E : Embeds N f.
  Let fv : V3 R -> V3 T := vmap3 f.
  Let fm : M3 R -> M3 T := vmap3 (vmap3 f).

  Lemma l_pow x n : npow (f x) n = f (npow x n).
  Proof using E.
    unfold npow. assert (G : forall n acc x, npow_aux (option_map f acc) (f x) n = f (npow_aux acc x n)).
    { clear x n. induction n as [n IH|n IH|]; intros acc x; cbn [npow_aux].
      - rewrite (e_mul N f E). destruct acc as [a|]; cbn [option_map mul_opt].
        + rewrite (e_mul N f E). apply (IH (Some (a * x)) (x * x)).
        + apply (IH (Some x) (x * x)).
      - rewrite (e_mul N f E). apply IH.
      - destruct acc as [a|]; cbn [option_map mul_opt]; [apply (e_mul N f E)|reflexivity]. }
    apply (G n None x).
  Qed.
  Lemma l_gt a b : n_gt (f a) (f b) = n_gt a b.
  Proof using E. unfold n_gt. apply (e_lt N f E). Qed.
  Lemma l_where (b : bool) x y : where_ b (f x) (f y) = f (where_ b x y).
  Proof using. destruct b; reflexivity. Qed.
  Lemma l_inner a b : vinner (fv a) (fv b) = f (vinner a b).
  Proof using E. unfold vinner, fv, vmap3. cbn [c0 c1 c2]. now rewrite !(e_mul N f E), !(e_add N f E). Qed.
  Lemma l_cross a b : vcross (fv a) (fv b) = fv (vcross a b).
  Proof using E. unfold vcross, fv, vmap3. cbn [c0 c1 c2]. now rewrite !(e_mul N f E), !(e_sub N f E). Qed.
  Lemma l_vadd a b : vadd (fv a) (fv b) = fv (vadd a b).
  Proof using E. unfold vadd, vzip3, fv, vmap3. cbn [c0 c1 c2]. now rewrite !(e_add N f E). Qed.
  Lemma l_vsub a b : vsub (fv a) (fv b) = fv (vsub a b).
  Proof using E. unfold vsub, vzip3, fv, vmap3. cbn [c0 c1 c2]. now rewrite !(e_sub N f E). Qed.
  Lemma l_vscale k a : vscale (f k) (fv a) = fv (vscale k a).
  Proof using E. unfold vscale, fv, vmap3. cbn [c0 c1 c2]. now rewrite !(e_mul N f E). Qed.
  Lemma l_vdivs k a : k <> 0 -> vdivs (fv a) (f k) = fv (vdivs a k).
  Proof using E. intros. unfold vdivs, fv, vmap3. cbn [c0 c1 c2]. now rewrite !(e_div N f E). Qed.
  Lemma l_norm a : vector_norm (fv a) = f (vector_norm a).
  Proof using E.
    unfold vector_norm. rewrite l_inner, (e_sqrt N f E); [reflexivity|].
    change (vinner a a) with (dot a a). unfold dot. nra.
  Qed.
  Lemma l_madd a b : madd (fm a) (fm b) = fm (madd a b).
  Proof using E. unfold madd, vadd, vzip3, fm, vmap3. cbn [c0 c1 c2]. now rewrite !(e_add N f E). Qed.
  Lemma l_msub a b : msub (fm a) (fm b) = fm (msub a b).
  Proof using E. unfold msub, vsub, vzip3, fm, vmap3. cbn [c0 c1 c2]. now rewrite !(e_sub N f E). Qed.
  Lemma l_mscale k a : mscale (f k) (fm a) = fm (mscale k a).
  Proof using E. unfold mscale, vscale, fm, vmap3. cbn [c0 c1 c2]. now rewrite !(e_mul N f E). Qed.
  Lemma l_mdivs k a : k <> 0 -> mdivs (fm a) (f k) = fm (mdivs a k).
  Proof using E. intros. unfold mdivs, vdivs, fm, vmap3. cbn [c0 c1 c2]. now rewrite !(e_div N f E). Qed.
  Lemma l_outer a b : outer (fv a) (fv b) = fm (outer a b).
  Proof using E. unfold outer, vscale, fv, fm, vmap3. cbn [c0 c1 c2]. now rewrite !(e_mul N f E). Qed.
  Lemma l_mneg a : mneg (fm a) = fm (mneg a).
  Proof using E. unfold mneg, vneg, fm, vmap3. cbn [c0 c1 c2]. now rewrite !(e_neg N f E). Qed.
  Lemma l_eye : eye3 = fm eye3.
  Proof using E. unfold eye3, fm, vmap3. cbn [c0 c1 c2]. now rewrite !(e_Z N f E). Qed.
  Lemma l_mmul a b : mmul (fm a) (fm b) = fm (mmul a b).
  Proof using E. unfold mmul, mcol, vinner, fm, vmap3. cbn [c0 c1 c2]. now rewrite !(e_mul N f E), !(e_add N f E). Qed.
  Lemma l_mvec a b : mvec (fm a) (fv b) = fv (mvec a b).
  Proof using E. unfold mvec, vinner, fm, fv, vmap3. cbn [c0 c1 c2]. now rewrite !(e_mul N f E), !(e_add N f E). Qed.

  (** ** Universal functions *)
  Ltac lift1 := rewrite ?(e_Z N f E), ?(e_dec N f E), ?(e_pi N f E), ?l_pow, ?(e_neg N f E), ?(e_abs N f E), ?(e_mul N f E),
    ?(e_add N f E), ?(e_sub N f E), ?(e_sin N f E), ?(e_cos N f E), ?(e_sinh N f E), ?(e_cosh N f E), ?(e_arctan2 N f E),
    ?(e_cbrt N f E), ?(e_max N f E), ?(e_floor N f E).
  Ltac side := solve [ lra | assumption | apply Rgt_not_eq; (assumption || (apply sqrt_lt_R0; lra)) ].
  Ltac lift := repeat (progress lift1 || (rewrite (e_sqrt N f E) by side) || (rewrite (e_div N f E) by side)).
  Ltac cases al :=
    rewrite ?(e_Z N f E), ?l_gt, ?(e_lt N f E); unfold where_, n_gt;
    change (@n_lt R Num_R) with ltb; change (@n_Z R Num_R 0%Z) with 0;
    unfold ltb; destruct (Rlt_dec 0 al); [|destruct (Rlt_dec al 0)].
  Lemma l_ufunc0 chi al : ufunc0 (f chi) (f al) = f (ufunc0 chi al).
  Proof using E. unfold ufunc0. cases al; lift; reflexivity. Qed.
  Lemma l_ufunc1 chi al : ufunc1 (f chi) (f al) = f (ufunc1 chi al).
  Proof using E. unfold ufunc1. cases al; lift; reflexivity. Qed.
  Lemma l_ufunc2 chi al : ufunc2 (f chi) (f al) = f (ufunc2 chi al).
  Proof using E. unfold ufunc2. cases al; lift; reflexivity. Qed.
  Lemma l_ufunc3 chi al : ufunc3 (f chi) (f al) = f (ufunc3 chi al).
  Proof using E. unfold ufunc3. cases al; lift; reflexivity. Qed.
  Lemma l_sq_neq al : al <> 0 -> 2 * npow al 2 <> 0.
  Proof using. intros H. apply Rmult_integral_contrapositive. split; [lra|]. now apply npow_neq. Qed.
  Lemma l_cu_neq al : al <> 0 -> 6 * npow al 3 <> 0.
  Proof using. intros H. apply Rmult_integral_contrapositive. split; [lra|]. now apply npow_neq. Qed.
  Lemma l_ufunc4 chi al : ufunc4 (f chi) (f al) = f (ufunc4 chi al).
  Proof using E.
    unfold ufunc4. cases al; lift; try reflexivity; rewrite (e_div N f E) by (apply l_sq_neq; lra); reflexivity.
  Qed.
  Lemma l_ufunc5 chi al : ufunc5 (f chi) (f al) = f (ufunc5 chi al).
  Proof using E.
    unfold ufunc5. cases al; lift; try reflexivity; rewrite (e_div N f E) by (apply l_cu_neq; lra); reflexivity.
  Qed.

  (** ** Integrals *)
  Lemma l_sigma r v mu : 0 < mu -> sigma_fn (fv r) (fv v) (f mu) = f (sigma_fn r v mu).
  Proof using E. intros. unfold sigma_fn. rewrite l_inner. lift. reflexivity. Qed.
  Lemma l_ecc_vec r v mu : mu <> 0 -> r <> vzero ->
    eccentricity_vector (fv r) (fv v) (f mu) = fv (eccentricity_vector r v mu).
  Proof using E.
    intros Hm Hr. unfold eccentricity_vector, angular_momentum. rewrite !l_cross, l_norm, !l_vdivs, l_vsub; auto.
    apply Rgt_not_eq. apply (vnorm_pos _ Hr).
  Qed.
  Lemma l_alpha r v mu : r <> 0 -> mu <> 0 -> 2 / r - v ^ 2 / mu <> 0 ->
    alpha_of (f r) (f v) (f mu) = f (alpha_of r v mu).
  Proof using E.
    intros Hr Hm Ha. assert (H2 : npow v 2 = v ^ 2) by apply npow_R.
    unfold alpha_of, semimajor_axis. lift. rewrite H2, (e_div N f E) by exact Ha.
    rewrite (e_div N f E); [|unfold Rdiv at 1; rewrite Rmult_1_l; now apply Rinv_neq_0_compat].
    f_equal.
  Qed.

  (** ** The solver and the propagator, once [alpha] is known *)
  Section Kep.
    Variables (al r0 s0 mu : R).
    Hypothesis Hm : 0 < mu.
    Hypothesis Hd : forall chi : R, dchi chi al r0 s0 <> 0.
    Lemma l_equ_uni chi t : kepler_equ_uni (f chi) (f al) (f r0) (f s0) (f t) (f mu) = f (kepler_equ_uni chi al r0 s0 t mu).
    Proof using E Hm. clear Hd. unfold kepler_equ_uni. rewrite l_ufunc1, l_ufunc2, l_ufunc3. lift. reflexivity. Qed.
    Lemma l_radius chi : equ_of_orb_uvi (ufunc0 (f chi) (f al)) (ufunc1 (f chi) (f al)) (ufunc2 (f chi) (f al)) (f r0) (f s0)
      = f (equ_of_orb_uvi (ufunc0 chi al) (ufunc1 chi al) (ufunc2 chi al) r0 s0).
    Proof using E. clear Hd Hm. rewrite l_ufunc0, l_ufunc1, l_ufunc2. unfold equ_of_orb_uvi. lift. reflexivity. Qed.
    Let Rel (s : loop_state (T := R)) (s' : loop_state (T := T)) :=
      let '(i, x, y) := s in s' = (i, f x, f y).
    Lemma l_exceeds x tol : exceeds (f x) (f tol) = exceeds x tol.
    Proof using E. clear Hd Hm. unfold exceeds. rewrite (e_abs N f E). apply l_gt. Qed.
    Lemma l_step t tol mi s s' : Rel s s' ->
      uni_cond (f t) (f al) (f r0) (f s0) (f mu) (f tol) mi s' = uni_cond t al r0 s0 mu tol mi s /\
      Rel (uni_body t al r0 s0 mu s) (uni_body (f t) (f al) (f r0) (f s0) (f mu) s').
    Proof using E Hm Hd.
      destruct s as [[i x] y]. intros ->. unfold uni_cond, uni_body, Rel.
      rewrite l_equ_uni, l_exceeds. split; [reflexivity|]. f_equal. f_equal.
      unfold dchi. rewrite l_radius. rewrite (e_div N f E) by apply Hd. rewrite (e_sub N f E). reflexivity.
    Qed.
    Lemma l_init t tol : Rel (uni_init t al mu tol) (uni_init (f t) (f al) (f mu) (f tol)).
    Proof using E Hm.
      clear Hd. unfold Rel, uni_init, uni_guess. lift. reflexivity.
    Qed.
    Lemma l_fuel t tol mi n : forall s s', Rel s s' ->
      match while_fuel n (uni_cond t al r0 s0 mu tol mi) (uni_body t al r0 s0 mu) s,
        while_fuel n (uni_cond (f t) (f al) (f r0) (f s0) (f mu) (f tol) mi) (uni_body (f t) (f al) (f r0) (f s0) (f mu)) s' with
      | Some x, Some x' => Rel x x' | None, None => True | _, _ => False end.
    Proof using E Hm Hd.
      induction n as [|n IH]; intros s s' H; cbn [while_fuel]; auto.
      destruct (l_step t tol mi s s' H) as [-> H']. destruct (uni_cond _ _ _ _ _ _ _ s); [exact (IH _ _ H')|exact H].
    Qed.
    Lemma l_solver t tol mi : solve_kepler_uni (f t) (f al) (f r0) (f s0) (f mu) (f tol) mi
      = f (solve_kepler_uni t al r0 s0 mu tol mi).
    Proof using E Hm Hd.
      unfold solve_kepler_uni, uni_run. pose proof (l_fuel t tol mi (loop_fuel mi) _ _ (l_init t tol)) as H.
      destruct (while_fuel _ _ (uni_body t al r0 s0 mu) _) as [[[i x] y]|];
      destruct (while_fuel _ _ _ _) as [[[i' x'] y']|]; try contradiction.
      - unfold Rel in H. now injection H as _ -> _.
      - clear H. unfold uni_guess. lift. reflexivity.
    Qed.
    Lemma l_state chi r v : r0 <> 0 -> state_at_chi (f chi) (f al) (f s0) (f r0) (fv r) (fv v) (f mu)
      = let x := state_at_chi chi al s0 r0 r v mu in (fv (fst x), fv (snd x)).
    Proof using E Hm Hd.
      intros Hr. specialize (Hd chi). assert (Hs : sqrt mu <> 0) by (apply Rgt_not_eq, sqrt_lt_R0, Hm).
      cbv zeta. unfold state_at_chi. rewrite l_radius, l_ufunc1, l_ufunc2.
      unfold dchi in Hd. set (rad := equ_of_orb_uvi _ _ _ r0 s0) in *. clearbody rad.
      unfold lagrange_F, lagrange_G, lagrange_Ft, lagrange_Gt, lagrange_prop. cbn [fst snd]. lift.
      rewrite !l_vscale, !l_vadd. reflexivity.
    Qed.
  End Kep.
End Lift.
