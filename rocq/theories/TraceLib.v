(** * TraceLib: maps that commute with every operation commute with the propagator *)
From Coq Require Import ZArith List Bool.
Import ListNotations.
From Verif Require Import Num OrbIntegrals Uniformulas Lagrange KepEqu StateTrans PropKepler Trace.

Record hom {T T'} {N : Num T} {N' : Num T'} (h : T -> T') : Prop := {
  h_Z : forall z, h (n_Z z) = n_Z z;
  h_dec : forall p q, h (n_dec p q) = n_dec p q;
  h_pi : h n_pi = n_pi;
  h_add : forall a b, h (n_add a b) = n_add (h a) (h b);
  h_sub : forall a b, h (n_sub a b) = n_sub (h a) (h b);
  h_mul : forall a b, h (n_mul a b) = n_mul (h a) (h b);
  h_div : forall a b, h (n_div a b) = n_div (h a) (h b);
  h_neg : forall a, h (n_neg a) = n_neg (h a);
  h_abs : forall a, h (n_abs a) = n_abs (h a);
  h_sqrt : forall a, h (n_sqrt a) = n_sqrt (h a);
  h_sin : forall a, h (n_sin a) = n_sin (h a);
  h_cos : forall a, h (n_cos a) = n_cos (h a);
  h_sinh : forall a, h (n_sinh a) = n_sinh (h a);
  h_cosh : forall a, h (n_cosh a) = n_cosh (h a);
  h_lt : forall a b, n_lt (h a) (h b) = n_lt a b }.

Lemma vstep_map {S S'} (g : S -> S') c b c' b' : (forall s, c' (g s) = c s) -> (forall s, b' (g s) = g (b s)) ->
  forall ss, vstep c' b' (map g ss) = map g (vstep c b ss).
Proof.
  intros Hc Hb ss. unfold vstep. rewrite !map_map. apply map_ext. intros s. rewrite Hc. destruct (c s); [apply Hb|reflexivity].
Qed.
Lemma vwhile_hom {S S'} (g : S -> S') c b c' b' : (forall s, c' (g s) = c s) -> (forall s, b' (g s) = g (b s)) ->
  forall n ss, vwhile_fuel n c' b' (map g ss) = option_map (map g) (vwhile_fuel n c b ss).
Proof.
  intros Hc Hb. induction n as [|n IH]; intros ss; [reflexivity|]. cbn [vwhile_fuel].
  assert (E : existsb c' (map g ss) = existsb c ss) by (clear -Hc; induction ss as [|s ss IH]; cbn; [reflexivity|now rewrite Hc, IH]).
  rewrite E. destruct (existsb c ss); [|reflexivity]. now rewrite (vstep_map g c b c' b' Hc Hb), IH.
Qed.

Section Hom.
  Context {T T' : Type} {N : Num T} {N' : Num T'} (h : T -> T').
  Hypothesis H : hom h.
  Ltac hh := repeat first [rewrite (h_Z h H) | rewrite (h_dec h H) | rewrite (h_pi h H) | rewrite (h_add h H) | rewrite (h_sub h H) | rewrite (h_mul h H) | rewrite (h_div h H)
    | rewrite (h_neg h H) | rewrite (h_abs h H) | rewrite (h_sqrt h H) | rewrite (h_sin h H) | rewrite (h_cos h H) | rewrite (h_sinh h H) | rewrite (h_cosh h H)].
  Notation vh := (vmap3 h).
  Lemma hom_pow_aux p : forall acc x, h (npow_aux acc x p) = npow_aux (option_map h acc) (h x) p.
  Proof using H.
    induction p as [p IH|p IH|]; intros acc x; cbn [npow_aux].
    - rewrite IH. destruct acc; cbn; now hh.
    - rewrite IH. now hh.
    - destruct acc; cbn; now hh.
  Qed.
  Lemma hom_pow x p : h (npow x p) = npow (h x) p.
  Proof using H. apply hom_pow_aux. Qed.
  Ltac hp := repeat first [rewrite hom_pow | progress hh].
  Lemma hom_gt a b : n_gt (h a) (h b) = n_gt a b.
  Proof using H. apply (h_lt h H). Qed.
  Lemma hom_norm v : h (vector_norm v) = vector_norm (vh v).
  Proof using H. unfold vector_norm, vinner. now hh. Qed.
  Lemma hom_sigma r v mu : h (sigma_fn r v mu) = sigma_fn (vh r) (vh v) (h mu).
  Proof using H. unfold sigma_fn, vinner. now hh. Qed.
  Lemma hom_alpha r v mu : h (alpha_of r v mu) = alpha_of (h r) (h v) (h mu).
  Proof using H. unfold alpha_of, semimajor_axis. now hp. Qed.
  Lemma hom_where (b : bool) (x y : T) : h (where_ b x y) = where_ b (h x) (h y).
  Proof using. now destruct b. Qed.
  Lemma hom_gt0 a : n_gt (h a) (n_Z 0) = n_gt a (n_Z 0).
  Proof using H. rewrite <- (h_Z h H). apply hom_gt. Qed.
  Lemma hom_lt0 a : n_lt (h a) (n_Z 0) = n_lt a (n_Z 0).
  Proof using H. rewrite <- (h_Z h H). apply (h_lt h H). Qed.
  Ltac uu := rewrite !hom_where, hom_gt0, hom_lt0; hp; reflexivity.
  Lemma hom_u0 chi al : h (ufunc0 chi al) = ufunc0 (h chi) (h al).
  Proof using H. unfold ufunc0. uu. Qed.
  Lemma hom_u1 chi al : h (ufunc1 chi al) = ufunc1 (h chi) (h al).
  Proof using H. unfold ufunc1. uu. Qed.
  Lemma hom_u2 chi al : h (ufunc2 chi al) = ufunc2 (h chi) (h al).
  Proof using H. unfold ufunc2. uu. Qed.
  Lemma hom_u3 chi al : h (ufunc3 chi al) = ufunc3 (h chi) (h al).
  Proof using H. unfold ufunc3. uu. Qed.
  Ltac ho := repeat first [rewrite hom_u0 | rewrite hom_u1 | rewrite hom_u2 | rewrite hom_u3 | progress hp].
  Lemma hom_keq chi al r0 s0 t mu : h (kepler_equ_uni chi al r0 s0 t mu) = kepler_equ_uni (h chi) (h al) (h r0) (h s0) (h t) (h mu).
  Proof using H. unfold kepler_equ_uni. now ho. Qed.
  Lemma hom_dchi chi al r0 s0 : h (dchi chi al r0 s0) = dchi (h chi) (h al) (h r0) (h s0).
  Proof using H. unfold dchi, equ_of_orb_uvi. now ho. Qed.
  Lemma hom_exceeds a b : exceeds (h a) (h b) = exceeds a b.
  Proof using H. unfold exceeds. rewrite <- (h_abs h H). apply hom_gt. Qed.
  Lemma hom_tol : default_tol = h default_tol.
  Proof using H. symmetry. apply (h_dec h H). Qed.
  Definition hlane (l : lane (T := T)) : lane (T := T') :=
    let '(t, (k, a, b)) := l in (h t, (k, h a, h b)).
  Lemma hom_init al mu t : lane_init (h al) (h mu) (h t) = hlane (lane_init al mu t).
  Proof using H. unfold lane_init, uni_init, uni_guess, default_tol, hlane. now hh. Qed.
  Lemma hom_cond al r0 s0 mu l : lane_cond (h al) (h r0) (h s0) (h mu) (hlane l) = lane_cond al r0 s0 mu l.
  Proof using H.
    destruct l as [t [[k a] b]]. unfold lane_cond, uni_cond, hlane. cbn [fst snd]. now rewrite <- hom_keq, hom_tol, hom_exceeds.
  Qed.
  Lemma hom_body al r0 s0 mu l : lane_body (h al) (h r0) (h s0) (h mu) (hlane l) = hlane (lane_body al r0 s0 mu l).
  Proof using H.
    destruct l as [t [[k a] b]]. unfold lane_body, uni_body, hlane. cbn [fst snd]. rewrite <- hom_keq, <- hom_dchi. now hh.
  Qed.
  Lemma hom_chi l : lane_chi (hlane l) = h (lane_chi l).
  Proof using. now destruct l as [t [[k a] b]]. Qed.
  Lemma hom_solve ts al r0 s0 mu :
    vmap_solve_kepler_uni (map h ts) (h al) (h r0) (h s0) (h mu) = map h (vmap_solve_kepler_uni ts al r0 s0 mu).
  Proof using H.
    unfold vmap_solve_kepler_uni. rewrite map_map. rewrite (map_ext (fun x => lane_init (h al) (h mu) (h x)) (fun x => hlane (lane_init al mu x))) by (intros; apply hom_init).
    rewrite <- (map_map (lane_init al mu) hlane).
    rewrite (vwhile_hom hlane (lane_cond al r0 s0 mu) (lane_body al r0 s0 mu) _ _ (hom_cond al r0 s0 mu) (hom_body al r0 s0 mu)).
    destruct (vwhile_fuel _ _ _ _); cbn [option_map].
    - rewrite !map_map. apply map_ext, hom_chi.
    - rewrite !map_map. apply map_ext. intros t. unfold uni_guess. now hh.
  Qed.
  Definition hpair (x : V3 T * V3 T) : V3 T' * V3 T' := (vh (fst x), vh (snd x)).
  Lemma hom_state chi al s0 r0 r v mu :
    hpair (state_at_chi chi al s0 r0 r v mu) = state_at_chi (h chi) (h al) (h s0) (h r0) (vh r) (vh v) (h mu).
  Proof using H.
    unfold hpair, state_at_chi, lagrange_prop. cbn [fst snd].
    unfold vadd, vscale, vzip3, vmap3, lagrange_F, lagrange_G, lagrange_Ft, lagrange_Gt, equ_of_orb_uvi. cbn [c0 c1 c2]. now ho.
  Qed.
  Lemma hom_kepler ts r v mu : map hpair (kepler ts r v mu) = kepler (map h ts) (vh r) (vh v) (h mu).
  Proof using H.
    unfold kepler. rewrite <- !hom_norm, <- hom_alpha, <- hom_sigma, hom_solve, !map_map. apply map_ext. intros chi. apply hom_state.
  Qed.
End Hom.

Lemma kepler_items_some {T} {N : Num T} (item : T -> option T) ts r v mu :
  item (alpha_of (vector_norm r) (vector_norm v) mu) = Some (alpha_of (vector_norm r) (vector_norm v) mu) ->
  item (vector_norm r) = Some (vector_norm r) -> item (sigma_fn r v mu) = Some (sigma_fn r v mu) ->
  kepler_items item ts r v mu = Some (kepler ts r v mu).
Proof. intros A B C. unfold kepler_items, kepler. cbv zeta. now rewrite A, B, C. Qed.

Section Traced.
  Context {T : Type} {N : Num T} (jit : bool).
  Lemma hom_number : @hom _ _ (Num_T jit) N number.
  Proof using. split; reflexivity. Qed.
  Lemma known_norm v : known (@vector_norm _ (Num_T jit) v) = negb jit && vknown v.
  Proof using.
    unfold vknown. destruct jit; cbn; [reflexivity|]. now destruct (known (c0 v)), (known (c1 v)), (known (c2 v)).
  Qed.
  Lemma known_alpha r v mu : known (@alpha_of _ (Num_T jit) r v mu) = negb jit && (known r && known v && known mu).
  Proof using.
    destruct jit; cbn; [reflexivity|]. now destruct (known r), (known v), (known mu).
  Qed.
  Lemma known_sigma r v mu : known (@sigma_fn _ (Num_T jit) r v mu) = negb jit && (vknown r && vknown v && known mu).
  Proof using.
    unfold vknown. destruct jit; cbn; [reflexivity|].
    now destruct (known (c0 r)), (known (c1 r)), (known (c2 r)), (known (c0 v)), (known (c1 v)), (known (c2 v)), (known mu).
  Qed.
  Lemma items_traced ts r v mu :
    option_map (map (hpair number)) (@kepler_items _ (Num_T jit) item_T ts r v mu)
    = if negb jit && (vknown r && vknown v && known mu)
      then Some (kepler (map number ts) (vnumber r) (vnumber v) (number mu)) else None.
  Proof using.
    pose proof (known_norm r) as K1. pose proof (known_norm v) as K2.
    pose proof (known_alpha (@vector_norm _ (Num_T jit) r) (@vector_norm _ (Num_T jit) v) mu) as K3.
    pose proof (known_sigma r v mu) as K4. rewrite K1, K2 in K3.
    pose proof (@hom_kepler _ _ (Num_T jit) N number hom_number ts r v mu) as HK.
    destruct jit; cbn [negb andb] in *.
    - unfold kepler_items. cbv zeta. unfold item_T at 1. now rewrite K3.
    - destruct (vknown r), (vknown v), (known mu); cbn [andb] in *; try solve [unfold kepler_items; cbv zeta; unfold item_T at 1; now rewrite K3].
      rewrite kepler_items_some by (unfold item_T; now rewrite ?K1, ?K3, ?K4).
      cbn [option_map]. f_equal. exact HK.
  Qed.
End Traced.
