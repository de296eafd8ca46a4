(** * AdOps: the rules of [NumD] are the rules of calculus *)
From Coq Require Import Reals Lra ZArith.
From Coquelicot Require Import Coquelicot.
From Verif Require Import Num NumR NumD Spec SpecAd RLib Ana Stm Atan2 SolveFacts.
Local Open Scope R_scope.

Local Notation D := (dual) (only parsing).
Lemma carries_val x s d : carries x s d -> val d = x s. Proof. now intros [H _]. Qed.
Lemma a_const c s : carries (fun _ => c) s (konst c).
Proof. split; [reflexivity|apply der_const]. Qed.
Lemma a_ext (x y : R -> R) s d : (forall u, x u = y u) -> carries x s d -> carries y s d.
Proof. intros H [V D]. split; [now rewrite <- H|]. now apply (der_ext x). Qed.
Lemma a_loc (x y : R -> R) s d : locally s (fun u => x u = y u) -> carries x s d -> carries y s d.
Proof. intros H [V D]. split; [rewrite <- V; symmetry; exact (locally_singleton _ _ H)|]. now apply (der_ev x). Qed.
Lemma a_Z z s : carries (fun _ => n_Z z) s (@n_Z _ Num_D z). Proof. apply a_const. Qed.
Lemma a_dec p q s : carries (fun _ => n_dec p q) s (@n_dec _ Num_D p q). Proof. apply a_const. Qed.
Lemma a_pi s : carries (fun _ => n_pi) s (@n_pi _ Num_D). Proof. apply a_const. Qed.

Section Ops.
  Context (x y : R -> R) (s : R) (a b : dual).
  Hypothesis Hx : carries x s a.
  Hypothesis Hy : carries y s b.
  Lemma a_add : carries (fun u => n_add (x u) (y u)) s (@n_add _ Num_D a b).
  Proof using Hx Hy. destruct Hx as [Vx Dx], Hy as [Vy Dy]. split; cbn; [congruence|now apply der_plus]. Qed.
  Lemma a_sub : carries (fun u => n_sub (x u) (y u)) s (@n_sub _ Num_D a b).
  Proof using Hx Hy. destruct Hx as [Vx Dx], Hy as [Vy Dy]. split; cbn; [congruence|now apply der_minus]. Qed.
  Lemma a_mul : carries (fun u => n_mul (x u) (y u)) s (@n_mul _ Num_D a b).
  Proof using Hx Hy. destruct Hx as [Vx Dx], Hy as [Vy Dy]. split; cbn; [congruence|]. rewrite <- Vx, <- Vy. now apply der_mult. Qed.
  Lemma a_div : y s <> 0 -> carries (fun u => n_div (x u) (y u)) s (@n_div _ Num_D a b).
  Proof using Hx Hy.
    intros N. destruct Hx as [Vx Dx], Hy as [Vy Dy]. split; cbn; [congruence|]. rewrite <- Vx, <- Vy.
    apply (der_eq _ _ ((tang a * y s - x s * tang b) / y s ^ 2)); [now apply der_div|]. field. exact N.
  Qed.
  Lemma a_neg : carries (fun u => n_neg (x u)) s (@n_neg _ Num_D a).
  Proof using Hx. destruct Hx as [Vx Dx]. split; cbn; [congruence|now apply der_opp]. Qed.
  Lemma a_sqrt : 0 < x s -> carries (fun u => n_sqrt (x u)) s (@n_sqrt _ Num_D a).
  Proof using Hx. intros P. destruct Hx as [Vx Dx]. split; cbn; [congruence|]. rewrite <- Vx. now apply der_sqrt. Qed.
  Lemma a_comp (f : R -> R) (df : R) : is_derive f (x s) df -> carries (fun u => f (x u)) s (mkD (f (val a)) (tang a * df)).
  Proof using Hx. intros F. destruct Hx as [Vx Dx]. split; cbn; [congruence|]. now apply der_comp. Qed.
  Lemma a_sin : carries (fun u => n_sin (x u)) s (@n_sin _ Num_D a).
  Proof using Hx. unfold n_sin, Num_D at 1. cbn. apply (a_comp sin). rewrite (carries_val _ _ _ Hx). apply is_derive_sin. Qed.
  Lemma a_cos : carries (fun u => n_cos (x u)) s (@n_cos _ Num_D a).
  Proof using Hx.
    cbn. replace (- (tang a * sin (val a))) with (tang a * - sin (val a)) by ring. apply (a_comp cos). rewrite (carries_val _ _ _ Hx). apply is_derive_cos.
  Qed.
  Lemma a_sinh : carries (fun u => n_sinh (x u)) s (@n_sinh _ Num_D a).
  Proof using Hx. cbn. apply (a_comp sinh). rewrite (carries_val _ _ _ Hx). apply der_sinh. Qed.
  Lemma a_cosh : carries (fun u => n_cosh (x u)) s (@n_cosh _ Num_D a).
  Proof using Hx. cbn. apply (a_comp cosh). rewrite (carries_val _ _ _ Hx). apply der_cosh. Qed.
  Lemma a_log : 0 < x s -> carries (fun u => n_log (x u)) s (@n_log _ Num_D a).
  Proof using Hx. intros P. cbn. unfold Rdiv. apply (a_comp ln). rewrite (carries_val _ _ _ Hx). now apply is_derive_ln. Qed.
End Ops.

(** Square root of the inner product, cube root, arccosine, two-argument arctangent. *)
Lemma der_cbrt (x : R) : x <> 0 -> is_derive cbrt x (/ (3 * (cbrt x * cbrt x))).
Proof.
  assert (P : forall z, 0 < z -> is_derive (fun t => exp (ln t / 3)) z (/ (3 * (exp (ln z / 3) * exp (ln z / 3))))).
  { intros z Hz. apply (der_eq _ _ ((/ z / 3) * exp (ln z / 3))).
    - apply (der_comp exp (fun t => ln t / 3)); [apply is_derive_exp|]. unfold Rdiv. apply (der_scal_r ln). now apply is_derive_ln.
    - set (k := exp (ln z / 3)). assert (K : 0 < k) by apply exp_pos. assert (E : k * k * k = z).
      { unfold k. rewrite <- !exp_plus. replace (ln z / 3 + ln z / 3 + ln z / 3) with (ln z) by field. now apply exp_ln. }
      rewrite <- E. field. lra. }
  intros N. destruct (Rlt_dec 0 x) as [Hx|Hx].
  - replace (cbrt x) with (exp (ln x / 3)) by (unfold cbrt; destruct (Rlt_dec 0 x); [reflexivity|contradiction]).
    apply (der_ev (fun t => exp (ln t / 3))); [|now apply P].
    apply (filter_imp (fun t => 0 < t)); [|apply (ev_gt (fun t : R => t) x 1 0); [apply der_id|exact Hx]].
    intros t Ht. unfold cbrt. destruct (Rlt_dec 0 t); [reflexivity|contradiction].
  - assert (Hn : x < 0) by lra.
    replace (cbrt x) with (- exp (ln (- x) / 3)) by (unfold cbrt; destruct (Rlt_dec 0 x); [contradiction|]; destruct (Rlt_dec x 0); [reflexivity|contradiction]).
    apply (der_ev (fun t => - exp (ln (- t) / 3))).
    + apply (filter_imp (fun t => t < 0)); [|apply (ev_lt (fun t : R => t) x 1 0); [apply der_id|exact Hn]].
      intros t Ht. unfold cbrt. destruct (Rlt_dec 0 t); [lra|]. destruct (Rlt_dec t 0); [reflexivity|contradiction].
    + eapply der_eq; [apply der_opp, (der_comp (fun t => exp (ln t / 3)) Ropp); [apply P; lra|apply der_opp, der_id]|].
      cbv beta. set (k := exp (ln (- x) / 3)). assert (K : 0 < k) by apply exp_pos. field. lra.
Qed.
Lemma der_acos (x : R) : -1 < x < 1 -> is_derive acos x (- / sqrt (1 - x * x)).
Proof.
  intros H. apply is_derive_Reals. pose proof (derive_pt_acos x H) as E.
  assert (P : - / sqrt (1 - x * x) = -1 / sqrt (1 - x²)).
  { unfold Rsqr. assert (Q : 0 < sqrt (1 - x * x)) by (apply sqrt_lt_R0; nra). field. lra. }
  rewrite P. exact (proj1 (derive_pt_eq acos x _ (derivable_pt_acos x H)) E).
Qed.
Lemma der_atan (x : R) : is_derive atan x (/ (1 + x ^ 2)).
Proof. apply is_derive_Reals, derivable_pt_lim_atan. Qed.

Lemma atan2_up y x : 0 < y -> atan2 y x = PI / 2 - atan (x / y).
Proof.
  intros Hy. unfold atan2. destruct (Rlt_dec 0 x) as [Hx|Hx].
  - replace (y / x) with (/ (x / y)) by (field; lra). rewrite atan_inv; [reflexivity|]. now apply Rdiv_lt_0_compat.
  - destruct (Rlt_dec x 0) as [Hn|Hn].
    + destruct (Rle_dec 0 y) as [_|C]; [|lra]. replace (y / x) with (- / ((- x) / y)) by (field; lra).
      rewrite atan_opp, atan_inv by (apply Rdiv_lt_0_compat; lra). replace (- x / y) with (- (x / y)) by (field; lra). rewrite atan_opp. field.
    + destruct (Rlt_dec 0 y) as [_|C]; [|lra]. replace x with 0 by lra. replace (0 / y) with 0 by (field; lra). rewrite atan_0. ring.
Qed.
Lemma atan2_down y x : y < 0 -> atan2 y x = - (PI / 2) - atan (x / y).
Proof.
  intros Hy. unfold atan2. destruct (Rlt_dec 0 x) as [Hx|Hx].
  - replace (y / x) with (- / (- (x / y))) by (field; lra).
    assert (P : 0 < - (x / y)) by (replace (- (x / y)) with (x / - y) by (field; lra); apply Rdiv_lt_0_compat; lra).
    rewrite atan_opp, atan_inv by exact P. rewrite atan_opp. ring.
  - destruct (Rlt_dec x 0) as [Hn|Hn].
    + destruct (Rle_dec 0 y) as [C|_]; [lra|]. replace (y / x) with (/ (x / y)) by (field; lra).
      rewrite atan_inv; [field|]. replace (x / y) with ((- x) / (- y)) by (field; lra). apply Rdiv_lt_0_compat; lra.
    + destruct (Rlt_dec 0 y) as [C|_]; [lra|]. destruct (Rlt_dec y 0) as [_|C]; [|lra]. replace x with 0 by lra. replace (0 / y) with 0 by (field; lra). rewrite atan_0. ring.
Qed.

Section More.
  Context (x y : R -> R) (s : R) (a b : dual).
  Hypothesis Hx : carries x s a.
  Hypothesis Hy : carries y s b.
  Lemma a_cbrt : x s <> 0 -> carries (fun u => n_cbrt (x u)) s (@n_cbrt _ Num_D a).
  Proof using Hx. intros P. cbn. unfold Rdiv. apply (a_comp x s a Hx cbrt). rewrite (carries_val _ _ _ Hx). now apply der_cbrt. Qed.
  Lemma a_arccos : -1 < x s < 1 -> carries (fun u => n_arccos (x u)) s (@n_arccos _ Num_D a).
  Proof using Hx.
    intros P. cbn. replace (- (tang a / sqrt (1 - val a * val a))) with (tang a * - / sqrt (1 - val a * val a)) by (unfold Rdiv; ring).
    apply (a_comp x s a Hx acos). rewrite (carries_val _ _ _ Hx). now apply der_acos.
  Qed.
  Lemma a_abs : x s <> 0 -> carries (fun u => n_abs (x u)) s (@n_abs _ Num_D a).
  Proof using Hx.
    intros P. cbn. apply (a_comp x s a Hx Rabs). rewrite (carries_val _ _ _ Hx). unfold sgn.
    destruct (Rlt_dec (x s) 0) as [L|L].
    - apply (der_ev Ropp); [|apply der_opp, der_id]. apply (filter_imp (fun t => t < 0)); [|apply (ev_lt (fun t : R => t) (x s) 1 0); [apply der_id|exact L]].
      intros t Ht. now rewrite Rabs_left.
    - destruct (Rlt_dec 0 (x s)) as [G|G]; [|lra].
      apply (der_ev (fun t : R => t)); [|apply der_id]. apply (filter_imp (fun t => 0 < t)); [|apply (ev_gt (fun t : R => t) (x s) 1 0); [apply der_id|exact G]].
      intros t Ht. now rewrite Rabs_pos_eq by lra.
  Qed.
  Lemma quot_der : y s <> 0 -> is_derive (fun u => atan (x u / y u)) s ((tang a * y s - x s * tang b) / (x s * x s + y s * y s)).
  Proof using Hx Hy.
    intros N. destruct Hx as [Vx Dx], Hy as [Vy Dy].
    eapply der_eq; [apply (der_comp atan (fun u => x u / y u)); [apply der_atan|apply der_div; [exact Dx|exact Dy|exact N]]|].
    cbv beta. assert (0 < x s * x s + y s * y s) by nra. field. repeat split; try exact N; nra.
  Qed.
  (** Away from the half line on which the angle jumps. *)
  Lemma a_arctan2 : y s <> 0 \/ 0 < x s -> carries (fun u => n_arctan2 (y u) (x u)) s (@n_arctan2 _ Num_D b a).
  Proof using Hx Hy.
    intros P. pose proof (carries_val _ _ _ Hx) as Vx. pose proof (carries_val _ _ _ Hy) as Vy.
    split; [cbn; now rewrite Vx, Vy|]. cbn. rewrite Vx, Vy. pose proof (proj2 Hx) as Dx. pose proof (proj2 Hy) as Dy.
    destruct (Rtotal_order (y s) 0) as [L|[E|G]].
    - apply (der_ev (fun u => - (PI / 2) - atan (x u / y u))).
      + apply (filter_imp (fun u => y u < 0)); [|exact (ev_lt y s _ 0 Dy L)]. intros u Hu. now rewrite atan2_down.
      + eapply der_eq; [apply der_minus; [apply der_const|apply quot_der; lra]|]. assert (0 < x s * x s + y s * y s) by nra. field. lra.
    - destruct P as [P|P]; [contradiction|]. apply (der_ev (fun u => atan (y u / x u))).
      + apply (filter_imp (fun u => 0 < x u)); [|exact (ev_gt x s _ 0 Dx P)]. intros u Hu. unfold atan2. destruct (Rlt_dec 0 (x u)); [reflexivity|contradiction].
      + eapply der_eq; [apply (der_comp atan (fun u => y u / x u)); [apply der_atan|apply der_div; [exact Dy|exact Dx|lra]]|].
        cbv beta. assert (0 < x s * x s + y s * y s) by nra. field. repeat split; try lra; nra.
    - apply (der_ev (fun u => PI / 2 - atan (x u / y u))).
      + apply (filter_imp (fun u => 0 < y u)); [|exact (ev_gt y s _ 0 Dy G)]. intros u Hu. now rewrite atan2_up.
      + eapply der_eq; [apply der_minus; [apply der_const|apply quot_der; lra]|]. assert (0 < x s * x s + y s * y s) by nra. field. lra.
  Qed.
  Lemma a_max : x s <> y s -> carries (fun u => n_max (x u) (y u)) s (@n_max _ Num_D a b).
  Proof using Hx Hy.
    intros P. pose proof (carries_val _ _ _ Hx) as Vx. pose proof (carries_val _ _ _ Hy) as Vy.
    split; [cbn; now rewrite Vx, Vy|]. cbn. rewrite Vx, Vy. pose proof (proj2 Hx) as Dx. pose proof (proj2 Hy) as Dy.
    pose proof (der_minus _ _ _ _ _ Dx Dy) as Dm.
    destruct (Rlt_dec (y s) (x s)) as [L|L].
    - apply (der_ev x); [|exact Dx]. apply (filter_imp (fun u => 0 < x u - y u)); [|apply (ev_gt _ s _ 0 Dm); lra]. intros u Hu. now rewrite Rmax_left by lra.
    - destruct (Rlt_dec (x s) (y s)) as [G|G]; [|lra].
      apply (der_ev y); [|exact Dy]. apply (filter_imp (fun u => x u - y u < 0)); [|apply (ev_lt _ s _ 0 Dm); lra]. intros u Hu. now rewrite Rmax_right by lra.
  Qed.
End More.

(** A branch chosen by a comparison, away from equality. *)
Lemma a_if (x y f g : R -> R) s (a b c d : dual) : carries x s a -> carries y s b -> x s <> y s ->
  (x s < y s -> carries f s c) -> (y s < x s -> carries g s d) ->
  carries (fun u => where_ (n_lt (x u) (y u)) (f u) (g u)) s (where_ (@n_lt _ Num_D a b) c d).
Proof.
  intros Hx Hy N Hf Hg. unfold where_. change (@n_lt _ Num_D a b) with (ltb (val a) (val b)). rewrite (carries_val _ _ _ Hx), (carries_val _ _ _ Hy).
  pose proof (der_minus _ _ _ _ _ (proj2 Hx) (proj2 Hy)) as Dm. cbn [n_lt Num_R].
  destruct (ltb (x s) (y s)) eqn:E.
  - apply ltb_true in E. apply (a_loc f); [|exact (Hf E)]. apply (filter_imp (fun u => x u - y u < 0)); [|apply (ev_lt _ s _ 0 Dm); lra].
    intros u Hu. assert (L : ltb (x u) (y u) = true) by (apply ltb_true; lra). now rewrite L.
  - apply ltb_false in E. apply (a_loc g); [|apply Hg; lra]. apply (filter_imp (fun u => 0 < x u - y u)); [|apply (ev_gt _ s _ 0 Dm); lra].
    intros u Hu. assert (L : ltb (x u) (y u) = false) by (apply ltb_false; lra). now rewrite L.
Qed.

(** Powers with a literal exponent. *)
Lemma a_mul_opt (f : option (R -> R)) (x : R -> R) s (c : option dual) a :
  match f, c with Some f', Some c' => carries f' s c' | None, None => True | _, _ => False end -> carries x s a ->
  carries (fun u => mul_opt (option_map (fun f' => f' u) f) (x u)) s (@mul_opt _ Num_D c a).
Proof. intros Hf Hx. destruct f, c; try contradiction; cbn [mul_opt option_map]; [now apply a_mul|exact Hx]. Qed.
Lemma a_pow_aux (p : positive) : forall (f : option (R -> R)) (x : R -> R) s (c : option dual) a,
  match f, c with Some f', Some c' => carries f' s c' | None, None => True | _, _ => False end -> carries x s a ->
  carries (fun u => npow_aux (option_map (fun f' => f' u) f) (x u) p) s (@npow_aux _ Num_D c a p).
Proof.
  induction p as [p IH|p IH|]; intros f x s c a Hf Hx; cbn [npow_aux].
  - apply (IH (Some (fun u => mul_opt (option_map (fun f' => f' u) f) (x u))) (fun u => n_mul (x u) (x u))); [now apply a_mul_opt|now apply a_mul].
  - apply (IH f (fun u => n_mul (x u) (x u))); [exact Hf|now apply a_mul].
  - now apply a_mul_opt.
Qed.
Lemma a_pow p x s a : carries x s a -> carries (fun u => npow (x u) p) s (@npow _ Num_D a p).
Proof. intros Hx. apply (a_pow_aux p None x s None a I Hx). Qed.
