(** * UnitCalc: how a change of units travels through the formulas.

    [Rl k t b]: if the guarded run ([NumW]) produced [t = Some a], then [b] is [a]
    in the other units, [a * 2^k]. *)
From Coq Require Import ZArith Reals Bool List Lia String.
From Flocq Require Import Core IEEE754.BinarySingleNaN.
From Verif Require Import Num NumW SpecUnits UnitFloat OrbIntegrals RotMat OrbElements Uniformulas Lagrange KepEqu StateTrans PropKepler PathCheck Gravity LoopFacts.
Import ListNotations.
Local Open Scope Z_scope.

Section Calc.
  Context {prec emax : Z} (Hp : FLX.Prec_gt_0 prec) (Hm : Prec_lt_emax prec emax).
  Notation bf := (binary_float prec emax).
  Record ieee (N : Num bf) : Prop := {
    i_add : forall a b, @n_add _ N a b = Bplus mode_NE a b;
    i_sub : forall a b, @n_sub _ N a b = Bminus mode_NE a b;
    i_mul : forall a b, @n_mul _ N a b = Bmult mode_NE a b;
    i_div : forall a b, @n_div _ N a b = Bdiv mode_NE a b;
    i_sqrt : forall a, @n_sqrt _ N a = Bsqrt mode_NE a;
    i_neg : forall a, @n_neg _ N a = Bopp a;
    i_abs : forall a, @n_abs _ N a = Babs a;
    i_lt : forall a b, @n_lt _ N a b = Bltb a b;
    i_max : forall a b, @n_max _ N a b = if is_nan a then a else if is_nan b then b else if Bltb a b then b else a;
    i_zero : @n_Z _ N 0 = B754_zero false }.
  Context (N : Num bf) (I : ieee N) (K : Z) (K0 : 0 <= K).
  Definition W : Num (option bf) := Num_W N K.

  Definition Rl (k : Z) (t : option bf) (b : bf) : Prop := match t with Some a => scaled k a b | None => True end.
  Lemma Rl_zero_inv (a : bf) (b : bf) : Rl 0 (Some a) b -> b = a. Proof using. apply scaled_0. Qed.

  Lemma keep_Rl (k : Z) (ok : bool) (a b : bf) : (ok = true -> scaled k a b) -> Rl k (keep ok a) b.
  Proof using. unfold keep. destruct ok; cbn [Rl]; auto. Qed.
  Lemma Rmul (j k m : Z) (t u : option bf) (b d : bf) : j + k = m -> Z.abs m <= K -> Rl j t b -> Rl k u d -> Rl m (@n_mul _ W t u) (@n_mul _ N b d).
  Proof using I K0.
    intros <- Hk A B. destruct t as [a|], u as [c|]; try exact Logic.I. cbn [W Num_W n_mul w2]. apply keep_Rl. rewrite !(i_mul _ I).
    intros Ok. exact (sc_mul _ _ _ _ K j k a b c d K0 Hk A B Ok).
  Qed.
  Lemma Rdiv (j k m : Z) (t u : option bf) (b d : bf) : j - k = m -> Z.abs m <= K -> Rl j t b -> Rl k u d -> Rl m (@n_div _ W t u) (@n_div _ N b d).
  Proof using I K0.
    intros <- Hk A B. destruct t as [a|], u as [c|]; try exact Logic.I. cbn [W Num_W n_div w2]. apply keep_Rl. rewrite !(i_div _ I).
    intros Ok. exact (sc_div _ _ _ _ K j k a b c d K0 Hk A B Ok).
  Qed.
  Lemma Radd (k : Z) (t u : option bf) (b d : bf) : Z.abs k <= K -> Rl k t b -> Rl k u d -> Rl k (@n_add _ W t u) (@n_add _ N b d).
  Proof using I K0.
    intros Hk A B. destruct t as [a|], u as [c|]; try exact Logic.I. cbn [W Num_W n_add w2]. apply keep_Rl. rewrite !(i_add _ I).
    intros Ok. exact (sc_add _ _ _ _ K k a b c d K0 Hk A B Ok).
  Qed.
  Lemma Rsub (k : Z) (t u : option bf) (b d : bf) : Z.abs k <= K -> Rl k t b -> Rl k u d -> Rl k (@n_sub _ W t u) (@n_sub _ N b d).
  Proof using I K0.
    intros Hk A B. destruct t as [a|], u as [c|]; try exact Logic.I. cbn [W Num_W n_sub w2]. apply keep_Rl. rewrite !(i_sub _ I).
    intros Ok. exact (sc_sub _ _ _ _ K k a b c d K0 Hk A B Ok).
  Qed.
  Lemma Rsqrt (k m : Z) (t : option bf) (b : bf) : m + m = k -> Z.abs m <= K -> Rl k t b -> Rl m (@n_sqrt _ W t) (@n_sqrt _ N b).
  Proof using I K0.
    intros <- Hk A. destruct t as [a|]; try exact Logic.I. cbn [W Num_W n_sqrt w1]. apply keep_Rl. rewrite !(i_sqrt _ I).
    intros Ok. exact (sc_sqrt _ _ _ _ K m a b K0 Hk A Ok).
  Qed.
  Lemma Rneg (k : Z) (t : option bf) (b : bf) : Rl k t b -> Rl k (@n_neg _ W t) (@n_neg _ N b).
  Proof using I. intros A. destruct t as [a|]; try exact Logic.I. cbn [W Num_W n_neg w1 keep Rl]. rewrite !(i_neg _ I). apply sc_neg, A. Qed.
  Lemma Rabs' (k : Z) (t : option bf) (b : bf) : Rl k t b -> Rl k (@n_abs _ W t) (@n_abs _ N b).
  Proof using I. intros A. destruct t as [a|]; try exact Logic.I. cbn [W Num_W n_abs w1 keep Rl]. rewrite !(i_abs _ I). apply sc_abs, A. Qed.
  Lemma Rlt' (k : Z) (t u : option bf) (b d : bf) : t <> None -> u <> None -> Rl k t b -> Rl k u d -> @n_lt _ W t u = @n_lt _ N b d.
  Proof using I.
    intros T U A B. destruct t as [a|]; [|now contradict T]. destruct u as [c|]; [|now contradict U]. cbn [W Num_W n_lt]. rewrite !(i_lt _ I).
    symmetry. exact (sc_lt _ _ k a b c d A B).
  Qed.
  Lemma Rmax (k : Z) (t u : option bf) (b d : bf) : Rl k t b -> Rl k u d -> Rl k (@n_max _ W t u) (@n_max _ N b d).
  Proof using I.
    intros A B. destruct t as [a|], u as [c|]; try exact Logic.I. cbn [W Num_W n_max w2 keep Rl]. rewrite !(i_max _ I). cbn [Rl] in A, B.
    assert (F : forall x : bf, is_finite x = true -> is_nan x = false) by now destruct x.
    rewrite !F by apply A || apply B. rewrite (sc_lt _ _ k a b c d A B). now destruct (Bltb a c).
  Qed.
  Lemma Rfloor (t : option bf) (b : bf) : Rl 0 t b -> Rl 0 (@n_floor _ W t) (@n_floor _ N b).
  Proof using. intros A. destruct t as [a|]; try exact Logic.I. apply Rl_zero_inv in A. subst b. cbn [W Num_W n_floor w1]. apply keep_Rl, scaled_refl. Qed.
  Lemma RZ (z : Z) : Rl 0 (@n_Z _ W z) (@n_Z _ N z). Proof using. apply keep_Rl, scaled_refl. Qed.
  Lemma Rdec (p : Z) (q : positive) : Rl 0 (@n_dec _ W p q) (@n_dec _ N p q). Proof using. apply keep_Rl, scaled_refl. Qed.
  Lemma Rpi : Rl 0 (@n_pi _ W) (@n_pi _ N). Proof using. apply keep_Rl, scaled_refl. Qed.
  Lemma RZ0 (k : Z) : Rl k (@n_Z _ W 0) (@n_Z _ N 0). Proof using I. apply keep_Rl. intros _. rewrite (i_zero _ I). apply scaled_zero. Qed.
  Lemma Z0_some : @n_Z _ W 0 <> None. Proof using I. cbn [W Num_W n_Z]. rewrite (i_zero _ I). discriminate. Qed.
  Lemma R1 (f : bf -> bf) (t : option bf) (b : bf) : Rl 0 t b -> Rl 0 (w1 f (fun _ r => is_finite r) t) (f b).
  Proof using. intros A. destruct t as [a|]; try exact Logic.I. apply Rl_zero_inv in A. subst b. cbn [w1]. apply keep_Rl, scaled_refl. Qed.
  Lemma Rsin (t : option bf) (b : bf) : Rl 0 t b -> Rl 0 (@n_sin _ W t) (@n_sin _ N b). Proof using. apply R1. Qed.
  Lemma Rcos (t : option bf) (b : bf) : Rl 0 t b -> Rl 0 (@n_cos _ W t) (@n_cos _ N b). Proof using. apply R1. Qed.
  Lemma Rsinh (t : option bf) (b : bf) : Rl 0 t b -> Rl 0 (@n_sinh _ W t) (@n_sinh _ N b). Proof using. apply R1. Qed.
  Lemma Rcosh (t : option bf) (b : bf) : Rl 0 t b -> Rl 0 (@n_cosh _ W t) (@n_cosh _ N b). Proof using. apply R1. Qed.
  Lemma Rarccos (t : option bf) (b : bf) : Rl 0 t b -> Rl 0 (@n_arccos _ W t) (@n_arccos _ N b). Proof using. apply R1. Qed.
  (** [arctan2] of two numbers in the same unit must not depend on the unit *)
  Definition hom_arctan2 : Prop := hom2 (@n_arctan2 _ N).
  Lemma Ratan (k : Z) (t u : option bf) (b d : bf) : hom_arctan2 -> Rl k t b -> Rl k u d -> Rl 0 (@n_arctan2 _ W t u) (@n_arctan2 _ N b d).
  Proof using.
    intros Ha A B. destruct t as [a|], u as [c|]; try exact Logic.I. cbn [W Num_W n_arctan2 w2]. rewrite (Ha k _ _ _ _ A B). apply keep_Rl, scaled_refl.
  Qed.

  (** nothing in a unit: all exponents 0 *)
  Lemma K1 : Z.abs 0 <= K. Proof using K0. exact K0. Qed.
  Lemma Omul (t u : option bf) (b d : bf) : Rl 0 t b -> Rl 0 u d -> Rl 0 (@n_mul _ W t u) (@n_mul _ N b d). Proof using I K0. now apply (Rmul 0 0). Qed.
  Lemma Odiv (t u : option bf) (b d : bf) : Rl 0 t b -> Rl 0 u d -> Rl 0 (@n_div _ W t u) (@n_div _ N b d). Proof using I K0. now apply (Rdiv 0 0). Qed.
  Lemma Oadd (t u : option bf) (b d : bf) : Rl 0 t b -> Rl 0 u d -> Rl 0 (@n_add _ W t u) (@n_add _ N b d). Proof using I K0. now apply (Radd 0). Qed.
  Lemma Osub (t u : option bf) (b d : bf) : Rl 0 t b -> Rl 0 u d -> Rl 0 (@n_sub _ W t u) (@n_sub _ N b d). Proof using I K0. now apply (Rsub 0). Qed.
  Lemma Osqrt (t : option bf) (b : bf) : Rl 0 t b -> Rl 0 (@n_sqrt _ W t) (@n_sqrt _ N b). Proof using I K0. now apply (Rsqrt 0 0). Qed.
  Lemma Rpow (y : positive) : forall (k : Z) (t : option bf) (b : bf), 0 <= K -> Z.abs k * Zpos y <= K -> Rl k t b -> Rl (k * Zpos y) (@npow _ W t y) (@npow _ N b y).
  Proof using I K0.
    assert (G : forall (y : positive) (i k : Z) (acc : option (option bf)) (acc' : option bf) (t : option bf) (b : bf),
      match acc, acc' with Some a, Some a' => Rl i a a' | None, None => i = 0 | _, _ => False end ->
      Z.abs i + Z.abs k * Zpos y <= K -> Rl k t b -> Rl (i + k * Zpos y) (@npow_aux _ W acc t y) (@npow_aux _ N acc' b y)).
    { clear y. induction y as [y IH|y IH|]; intros i k acc acc' t b Ha Hk A; cbn [npow_aux];
        try (assert (P1 : Z.abs (k + k) * Zpos y = 2 * (Z.abs k * Zpos y)) by (replace (Z.abs (k + k)) with (2 * Z.abs k) by lia; ring);
             assert (P2 : Z.abs k <= Z.abs k * Zpos y) by nia).
      - replace (i + k * Zpos y~1) with ((i + k) + (k + k) * Zpos y) by lia. apply IH.
        + destruct acc as [a|], acc' as [a'|]; try contradiction; cbn [mul_opt]; [apply (Rmul i k); try assumption; lia|]. subst i. exact A.
        + lia.
        + apply (Rmul k k); try assumption; lia.
      - replace (i + k * Zpos y~0) with (i + (k + k) * Zpos y) by lia. apply IH; [exact Ha|lia|]. apply (Rmul k k); try assumption; lia.
      - rewrite Z.mul_1_r in *. destruct acc as [a|], acc' as [a'|]; try contradiction; cbn [mul_opt]; [apply (Rmul i k); try assumption; lia|]. subst i. exact A. }
    intros k t b _ Hk A. apply (G y 0 k None None t b); [reflexivity|lia|exact A].
  Qed.
  Lemma Rpow' (y : positive) (k m : Z) (t : option bf) (b : bf) : k * Zpos y = m -> Z.abs k * Zpos y <= K -> Rl k t b -> Rl m (@npow _ W t y) (@npow _ N b y).
  Proof using I K0. intros <- H A. now apply Rpow. Qed.
  Lemma Opow (y : positive) (t : option bf) (b : bf) : Rl 0 t b -> Rl 0 (@npow _ W t y) (@npow _ N b y).
  Proof using I K0. intros A. apply (Rpow' y 0); [reflexivity|exact K0|exact A]. Qed.
  Lemma Owhere (p : bool) (t u : option bf) (b d : bf) : Rl 0 t b -> Rl 0 u d -> Rl 0 (where_ p t u) (where_ p b d).
  Proof using. now destruct p. Qed.

  (** ** vectors and matrices *)
  Definition RV (k : Z) (a : V3 (option bf)) (a' : V3 bf) : Prop := Rl k (c0 a) (c0 a') /\ Rl k (c1 a) (c1 a') /\ Rl k (c2 a) (c2 a').
  Definition RM (k : Z) (A : M3 (option bf)) (A' : M3 bf) : Prop := RV k (c0 A) (c0 A') /\ RV k (c1 A) (c1 A') /\ RV k (c2 A) (c2 A').
  Lemma RVadd k a a' b b' : Z.abs k <= K -> RV k a a' -> RV k b b' -> RV k (@vadd _ W a b) (@vadd _ N a' b').
  Proof using I K0. intros H (A0 & A1 & A2) (B0 & B1 & B2). split; [|split]; now apply Radd. Qed.
  Lemma RVsub k a a' b b' : Z.abs k <= K -> RV k a a' -> RV k b b' -> RV k (@vsub _ W a b) (@vsub _ N a' b').
  Proof using I K0. intros H (A0 & A1 & A2) (B0 & B1 & B2). split; [|split]; now apply Rsub. Qed.
  Lemma RVneg k a a' : RV k a a' -> RV k (@vneg _ W a) (@vneg _ N a').
  Proof using I K0. intros (A0 & A1 & A2). split; [|split]; now apply Rneg. Qed.
  Lemma RVscale j k m s s' a a' : j + k = m -> Z.abs m <= K -> Rl j s s' -> RV k a a' -> RV m (@vscale _ W s a) (@vscale _ N s' a').
  Proof using I K0. intros E H S (A0 & A1 & A2). split; [|split]; now apply (Rmul j k). Qed.
  Lemma RVdivs j k m s s' a a' : j - k = m -> Z.abs m <= K -> RV j a a' -> Rl k s s' -> RV m (@vdivs _ W a s) (@vdivs _ N a' s').
  Proof using I K0. intros E H (A0 & A1 & A2) S. split; [|split]; now apply (Rdiv j k). Qed.
  Lemma Rinner j k m a a' b b' : j + k = m -> Z.abs m <= K -> RV j a a' -> RV k b b' -> Rl m (@vinner _ W a b) (@vinner _ N a' b').
  Proof using I K0.
    intros E H (A0 & A1 & A2) (B0 & B1 & B2). unfold vinner. apply Radd; [exact H|apply Radd; [exact H| |]|]; now apply (Rmul j k).
  Qed.
  Lemma Rcross j k m a a' b b' : j + k = m -> Z.abs m <= K -> RV j a a' -> RV k b b' -> RV m (@vcross _ W a b) (@vcross _ N a' b').
  Proof using I K0.
    intros E H (A0 & A1 & A2) (B0 & B1 & B2). unfold vcross. split; [|split]; cbn [c0 c1 c2]; (apply Rsub; [exact H| |]); now apply (Rmul j k).
  Qed.
  Lemma Rnorm k a a' : Z.abs (k + k) <= K -> RV k a a' -> Rl k (@vector_norm _ W a) (@vector_norm _ N a').
  Proof using I K0. intros H A. unfold vector_norm. apply (Rsqrt (k + k)); [reflexivity|lia|]. now apply (Rinner k k). Qed.
  Lemma RMadd k A A' B B' : Z.abs k <= K -> RM k A A' -> RM k B B' -> RM k (@madd _ W A B) (@madd _ N A' B').
  Proof using I K0. intros H (A0 & A1 & A2) (B0 & B1 & B2). split; [|split]; now apply RVadd. Qed.
  Lemma RMsub k A A' B B' : Z.abs k <= K -> RM k A A' -> RM k B B' -> RM k (@msub _ W A B) (@msub _ N A' B').
  Proof using I K0. intros H (A0 & A1 & A2) (B0 & B1 & B2). split; [|split]; now apply RVsub. Qed.
  Lemma RMneg k A A' : RM k A A' -> RM k (@mneg _ W A) (@mneg _ N A').
  Proof using I K0. intros (A0 & A1 & A2). split; [|split]; now apply RVneg. Qed.
  Lemma RMscale j k m s s' A A' : j + k = m -> Z.abs m <= K -> Rl j s s' -> RM k A A' -> RM m (@mscale _ W s A) (@mscale _ N s' A').
  Proof using I K0. intros E H S (A0 & A1 & A2). split; [|split]; now apply (RVscale j k). Qed.
  Lemma RMdivs j k m s s' A A' : j - k = m -> Z.abs m <= K -> RM j A A' -> Rl k s s' -> RM m (@mdivs _ W A s) (@mdivs _ N A' s').
  Proof using I K0. intros E H (A0 & A1 & A2) S. split; [|split]; now apply (RVdivs j k). Qed.
  Lemma RMouter j k m a a' b b' : j + k = m -> Z.abs m <= K -> RV j a a' -> RV k b b' -> RM m (@outer _ W a b) (@outer _ N a' b').
  Proof using I K0. intros E H (A0 & A1 & A2) B. split; [|split]; now apply (RVscale j k). Qed.
  Lemma RMeye : RM 0 (@eye3 _ W) (@eye3 _ N).
  Proof using I. unfold RM, RV, eye3; cbn [c0 c1 c2]. repeat split; apply RZ. Qed.
  Lemma RMright j k m s s' A A' : k + j = m -> Z.abs m <= K -> Rl j s s' -> RM k A A' ->
    RM m (vmap3 (fun row => vmap3 (fun x => @n_mul _ W x s) row) A) (vmap3 (fun row => vmap3 (fun x => @n_mul _ N x s') row) A').
  Proof using I K0. intros E H S ((A00 & A01 & A02) & (A10 & A11 & A12) & (A20 & A21 & A22)). repeat split; now apply (Rmul k j). Qed.
  Lemma RMmul j k m A A' B B' : j + k = m -> Z.abs m <= K -> RM j A A' -> RM k B B' -> RM m (@mmul _ W A B) (@mmul _ N A' B').
  Proof using I K0.
    intros E H (A0 & A1 & A2) ((B00 & B01 & B02) & (B10 & B11 & B12) & (B20 & B21 & B22)).
    unfold mmul, RM. repeat split; cbn [c0 c1 c2]; (apply (Rinner j k); [exact E|exact H|assumption|repeat split; assumption]).
  Qed.
  Lemma RMvec j k m A A' b b' : j + k = m -> Z.abs m <= K -> RM j A A' -> RV k b b' -> RV m (@mvec _ W A b) (@mvec _ N A' b').
  Proof using I K0. intros E H (A0 & A1 & A2) B. split; [|split]; now apply (Rinner j k). Qed.

  (** ** strictness *)
  Lemma s_mul_l (t u : option bf) : t = None -> @n_mul _ W t u = None. Proof using. now intros ->. Qed.
  Lemma s_mul_r (t u : option bf) : u = None -> @n_mul _ W t u = None. Proof using. intros ->. now destruct t. Qed.
  Lemma s_div_l (t u : option bf) : t = None -> @n_div _ W t u = None. Proof using. now intros ->. Qed.
  Lemma s_div_r (t u : option bf) : u = None -> @n_div _ W t u = None. Proof using. intros ->. now destruct t. Qed.
  Lemma s_add_l (t u : option bf) : t = None -> @n_add _ W t u = None. Proof using. now intros ->. Qed.
  Lemma s_add_r (t u : option bf) : u = None -> @n_add _ W t u = None. Proof using. intros ->. now destruct t. Qed.
  Lemma s_sub_l (t u : option bf) : t = None -> @n_sub _ W t u = None. Proof using. now intros ->. Qed.
  Lemma s_sub_r (t u : option bf) : u = None -> @n_sub _ W t u = None. Proof using. intros ->. now destruct t. Qed.
  Lemma s_sqrt (t : option bf) : t = None -> @n_sqrt _ W t = None. Proof using. now intros ->. Qed.
  Lemma s_neg (t : option bf) : t = None -> @n_neg _ W t = None. Proof using. now intros ->. Qed.
  Lemma s_abs (t : option bf) : t = None -> @n_abs _ W t = None. Proof using. now intros ->. Qed.
  Lemma s_sin (t : option bf) : t = None -> @n_sin _ W t = None. Proof using. now intros ->. Qed.
  Lemma s_cos (t : option bf) : t = None -> @n_cos _ W t = None. Proof using. now intros ->. Qed.
  Lemma s_sinh (t : option bf) : t = None -> @n_sinh _ W t = None. Proof using. now intros ->. Qed.
  Lemma s_cosh (t : option bf) : t = None -> @n_cosh _ W t = None. Proof using. now intros ->. Qed.
  Lemma s_pow2 (t : option bf) : t = None -> @npow _ W t 2 = None. Proof using. now intros ->. Qed.
  Lemma s_pow3 (t : option bf) : t = None -> @npow _ W t 3 = None. Proof using. now intros ->. Qed.
  Lemma s_pow4 (t : option bf) : t = None -> @npow _ W t 4 = None. Proof using. now intros ->. Qed.
  Lemma s_pow5 (t : option bf) : t = None -> @npow _ W t 5 = None. Proof using. now intros ->. Qed.
  Ltac nn := first [assumption | apply s_sqrt; nn | apply s_neg; nn | apply s_abs; nn | apply s_sin; nn | apply s_cos; nn | apply s_sinh; nn | apply s_cosh; nn
    | apply s_pow2; nn | apply s_pow3; nn | apply s_pow4; nn | apply s_pow5; nn
    | apply s_mul_l; nn | apply s_mul_r; nn | apply s_div_l; nn | apply s_div_r; nn | apply s_add_l; nn | apply s_add_r; nn | apply s_sub_l; nn | apply s_sub_r; nn].

  (** ** the exponents worked out on the way *)
  Lemma Rl_eq (j m : Z) (t : option bf) (b : bf) : Rl j t b -> j = m -> Rl m t b. Proof using. now intros A <-. Qed.
  Lemma Imul (j k : Z) (t u : option bf) (b d : bf) : Rl j t b -> Rl k u d -> Z.abs (j + k) <= K -> Rl (j + k) (@n_mul _ W t u) (@n_mul _ N b d).
  Proof using I K0. intros A B H. now apply (Rmul j k). Qed.
  Lemma Idiv (j k : Z) (t u : option bf) (b d : bf) : Rl j t b -> Rl k u d -> Z.abs (j - k) <= K -> Rl (j - k) (@n_div _ W t u) (@n_div _ N b d).
  Proof using I K0. intros A B H. now apply (Rdiv j k). Qed.
  Lemma Iadd (j k : Z) (t u : option bf) (b d : bf) : Rl j t b -> Rl k u d -> j = k -> Z.abs j <= K -> Rl j (@n_add _ W t u) (@n_add _ N b d).
  Proof using I K0. intros A B <- H. now apply Radd. Qed.
  Lemma Isub (j k : Z) (t u : option bf) (b d : bf) : Rl j t b -> Rl k u d -> j = k -> Z.abs j <= K -> Rl j (@n_sub _ W t u) (@n_sub _ N b d).
  Proof using I K0. intros A B <- H. now apply Rsub. Qed.
  Lemma Ipow (y : positive) (k : Z) (t : option bf) (b : bf) : Rl k t b -> Z.abs k * Zpos y <= K -> Rl (k * Zpos y) (@npow _ W t y) (@npow _ N b y).
  Proof using I K0. intros A H. now apply Rpow. Qed.
  Lemma I0 (j : Z) (F : option bf -> option bf) (f : bf -> bf) (t : option bf) (b : bf) : (forall t b, Rl 0 t b -> Rl 0 (F t) (f b)) -> Rl j t b -> j = 0 -> Rl 0 (F t) (f b).
  Proof using. intros H A ->. now apply H. Qed.
  Lemma Jadd j k a a' b b' : RV j a a' -> RV k b b' -> j = k -> Z.abs j <= K -> RV j (@vadd _ W a b) (@vadd _ N a' b').
  Proof using I K0. intros A B <- H. now apply RVadd. Qed.
  Lemma Jsub j k a a' b b' : RV j a a' -> RV k b b' -> j = k -> Z.abs j <= K -> RV j (@vsub _ W a b) (@vsub _ N a' b').
  Proof using I K0. intros A B <- H. now apply RVsub. Qed.
  Lemma Jscale j k s s' a a' : Rl j s s' -> RV k a a' -> Z.abs (j + k) <= K -> RV (j + k) (@vscale _ W s a) (@vscale _ N s' a').
  Proof using I K0. intros A B H. now apply (RVscale j k). Qed.
  Lemma Jdivs j k s s' a a' : RV j a a' -> Rl k s s' -> Z.abs (j - k) <= K -> RV (j - k) (@vdivs _ W a s) (@vdivs _ N a' s').
  Proof using I K0. intros A B H. now apply (RVdivs j k). Qed.
  Lemma Jinner j k a a' b b' : RV j a a' -> RV k b b' -> Z.abs (j + k) <= K -> Rl (j + k) (@vinner _ W a b) (@vinner _ N a' b').
  Proof using I K0. intros A B H. now apply (Rinner j k). Qed.
  Lemma Jcross j k a a' b b' : RV j a a' -> RV k b b' -> Z.abs (j + k) <= K -> RV (j + k) (@vcross _ W a b) (@vcross _ N a' b').
  Proof using I K0. intros A B H. now apply (Rcross j k). Qed.
  Lemma Jnorm k a a' : RV k a a' -> Z.abs (k + k) <= K -> Rl k (@vector_norm _ W a) (@vector_norm _ N a').
  Proof using I K0. intros A H. now apply Rnorm. Qed.
  Lemma Jmk k (x0 x1 x2 : option bf) (y0 y1 y2 : bf) : Rl k x0 y0 -> Rl k x1 y1 -> Rl k x2 y2 -> RV k (mk3 x0 x1 x2) (mk3 y0 y1 y2).
  Proof using. now repeat split. Qed.
  Lemma Madd j k A A' B B' : RM j A A' -> RM k B B' -> j = k -> Z.abs j <= K -> RM j (@madd _ W A B) (@madd _ N A' B').
  Proof using I K0. intros X Y <- H. now apply RMadd. Qed.
  Lemma Msub j k A A' B B' : RM j A A' -> RM k B B' -> j = k -> Z.abs j <= K -> RM j (@msub _ W A B) (@msub _ N A' B').
  Proof using I K0. intros X Y <- H. now apply RMsub. Qed.
  Lemma Mscale j k s s' A A' : Rl j s s' -> RM k A A' -> Z.abs (j + k) <= K -> RM (j + k) (@mscale _ W s A) (@mscale _ N s' A').
  Proof using I K0. intros X Y H. now apply (RMscale j k). Qed.
  Lemma Mdivs j k s s' A A' : RM j A A' -> Rl k s s' -> Z.abs (j - k) <= K -> RM (j - k) (@mdivs _ W A s) (@mdivs _ N A' s').
  Proof using I K0. intros X Y H. now apply (RMdivs j k). Qed.
  Lemma Mouter j k a a' b b' : RV j a a' -> RV k b b' -> Z.abs (j + k) <= K -> RM (j + k) (@outer _ W a b) (@outer _ N a' b').
  Proof using I K0. intros X Y H. now apply (RMouter j k). Qed.
  Lemma Mright j k s s' A A' : Rl j s s' -> RM k A A' -> Z.abs (k + j) <= K ->
    RM (k + j) (vmap3 (fun row => vmap3 (fun x => @n_mul _ W x s) row) A) (vmap3 (fun row => vmap3 (fun x => @n_mul _ N x s') row) A').
  Proof using I K0. intros X Y H. now apply (RMright j k). Qed.
  Lemma Mmul j k A A' B B' : RM j A A' -> RM k B B' -> Z.abs (j + k) <= K -> RM (j + k) (@mmul _ W A B) (@mmul _ N A' B').
  Proof using I K0. intros X Y H. now apply (RMmul j k). Qed.
  Lemma Mvec j k A A' b b' : RM j A A' -> RV k b b' -> Z.abs (j + k) <= K -> RV (j + k) (@mvec _ W A b) (@mvec _ N A' b').
  Proof using I K0. intros X Y H. now apply (RMvec j k). Qed.
  Lemma RV_eq (j m : Z) a a' : RV j a a' -> j = m -> RV m a a'. Proof using. now intros A <-. Qed.
  Lemma RM_eq (j m : Z) a a' : RM j a a' -> j = m -> RM m a a'. Proof using. now intros A <-. Qed.
  Ltac inf := first [eassumption | lazymatch goal with
    | |- Rl _ (n_Z _) _ => eapply RZ | |- Rl _ (n_dec _ _) _ => eapply Rdec | |- Rl _ n_pi _ => eapply Rpi | |- RM _ eye3 _ => eapply RMeye
    | |- Rl _ (n_mul _ _) _ => eapply Imul; [inf|inf|lia] | |- Rl _ (n_div _ _) _ => eapply Idiv; [inf|inf|lia]
    | |- Rl _ (n_add _ _) _ => eapply Iadd; [inf|inf|lia|lia] | |- Rl _ (n_sub _ _) _ => eapply Isub; [inf|inf|lia|lia]
    | |- Rl _ (npow _ _) _ => eapply Ipow; [inf|lia] | |- Rl _ (n_neg _) _ => eapply Rneg; inf | |- Rl _ (n_abs _) _ => eapply Rabs'; inf
    | |- Rl _ (n_sin _) _ => eapply (I0 _ (@n_sin _ W) (@n_sin _ N) _ _ Rsin); [inf|lia] | |- Rl _ (n_cos _) _ => eapply (I0 _ (@n_cos _ W) (@n_cos _ N) _ _ Rcos); [inf|lia]
    | |- Rl _ (n_sinh _) _ => eapply (I0 _ (@n_sinh _ W) (@n_sinh _ N) _ _ Rsinh); [inf|lia] | |- Rl _ (n_cosh _) _ => eapply (I0 _ (@n_cosh _ W) (@n_cosh _ N) _ _ Rcosh); [inf|lia]
    | |- Rl _ (n_arccos _) _ => eapply (I0 _ (@n_arccos _ W) (@n_arccos _ N) _ _ Rarccos); [inf|lia]
    | |- Rl _ (vinner _ _) _ => eapply Jinner; [inf|inf|lia] | |- Rl _ (vector_norm _) _ => eapply Jnorm; [inf|lia]
    | |- RV _ (vcross _ _) _ => eapply Jcross; [inf|inf|lia]
    | |- RV _ (vadd _ _) _ => eapply Jadd; [inf|inf|lia|lia] | |- RV _ (vsub _ _) _ => eapply Jsub; [inf|inf|lia|lia] | |- RV _ (vneg _) _ => eapply RVneg; inf
    | |- RV _ (vscale _ _) _ => eapply Jscale; [inf|inf|lia] | |- RV _ (vdivs _ _) _ => eapply Jdivs; [inf|inf|lia] | |- RV _ (mvec _ _) _ => eapply Mvec; [inf|inf|lia]
    | |- RM _ (madd _ _) _ => eapply Madd; [inf|inf|lia|lia] | |- RM _ (msub _ _) _ => eapply Msub; [inf|inf|lia|lia] | |- RM _ (mneg _) _ => eapply RMneg; inf
    | |- RM _ (mscale _ _) _ => eapply Mscale; [inf|inf|lia] | |- RM _ (mdivs _ _) _ => eapply Mdivs; [inf|inf|lia]
    | |- RM _ (outer _ _) _ => eapply Mouter; [inf|inf|lia] | |- RM _ (mmul _ _) _ => eapply Mmul; [inf|inf|lia] | |- RM _ (vmap3 _ _) _ => eapply Mright; [inf|inf|lia] end].
  Ltac fin := first [eapply Rl_eq | eapply RV_eq | eapply RM_eq]; [inf|lia].

  (** ** the universal functions: [chi] carries the root of a length, [alpha] an inverse length *)
  Lemma Rwhere (k : Z) (p : bool) (t u : option bf) (b d : bf) : Rl k t b -> Rl k u d -> Rl k (where_ p t u) (where_ p b d).
  Proof using. now destruct p. Qed.
  Lemma Rcase (j k : Z) (al X Y Z : option bf) (a x y z : bf) : Rl j al a -> (al = None -> X = None) -> Rl k X x -> Rl k Y y -> Rl k Z z ->
    Rl k (where_ (@n_gt _ W al (@n_Z _ W 0)) X (where_ (@n_lt _ W al (@n_Z _ W 0)) Y Z))
         (where_ (@n_gt _ N a (@n_Z _ N 0)) x (where_ (@n_lt _ N a (@n_Z _ N 0)) y z)).
  Proof using I.
    intros A HX RX RY RZ'. destruct al as [a'|].
    - unfold n_gt. rewrite (Rlt' j _ (Some a') _ a Z0_some ltac:(discriminate) (RZ0 j) A), (Rlt' j (Some a') _ a _ ltac:(discriminate) Z0_some A (RZ0 j)).
      repeat apply Rwhere; assumption.
    - rewrite (HX eq_refl). assert (E : @n_gt _ W None (@n_Z _ W 0) = true) by (unfold n_gt; cbn [W Num_W n_lt]; now destruct (n_Z 0)). rewrite E. exact Logic.I.
  Qed.

  Section Orbit.
    Context (l tu : Z) (HK : 16 * Z.abs l + 4 * Z.abs tu <= K).
    Section U.
      Context (chi al : option bf) (c a : bf) (Rc : Rl l chi c) (Ra : Rl (-2 * l) al a).
      Lemma sq_al : Rl (- l) (@n_sqrt _ W al) (@n_sqrt _ N a). Proof using I K0 HK Ra. apply (Rsqrt (-2 * l)); [lia|lia|assumption]. Qed.
      Lemma sq_nal : Rl (- l) (@n_sqrt _ W (@n_neg _ W al)) (@n_sqrt _ N (@n_neg _ N a)). Proof using I K0 HK Ra. apply (Rsqrt (-2 * l)); [lia|lia|now apply Rneg]. Qed.
      Ltac uu := pose proof sq_al as Q1; pose proof sq_nal as Q2; apply (Rcase (-2 * l)); [assumption|intros; nn|fin..].
      Lemma u0_rel : Rl 0 (@ufunc0 _ W chi al) (@ufunc0 _ N c a). Proof using I K0 HK Rc Ra. uu. Qed.
      Lemma u1_rel : Rl l (@ufunc1 _ W chi al) (@ufunc1 _ N c a). Proof using I K0 HK Rc Ra. uu. Qed.
      Lemma u2_rel : Rl (2 * l) (@ufunc2 _ W chi al) (@ufunc2 _ N c a). Proof using I K0 HK Rc Ra. uu. Qed.
      Lemma u3_rel : Rl (3 * l) (@ufunc3 _ W chi al) (@ufunc3 _ N c a). Proof using I K0 HK Rc Ra. uu. Qed.
      Lemma u4_rel : Rl (4 * l) (@ufunc4 _ W chi al) (@ufunc4 _ N c a). Proof using I K0 HK Rc Ra. uu. Qed.
      Lemma u5_rel : Rl (5 * l) (@ufunc5 _ W chi al) (@ufunc5 _ N c a). Proof using I K0 HK Rc Ra. uu. Qed.
    End U.

    (** ** the state: positions [2^(2l)], times [2^tu] *)
    Definition kv : Z := 2 * l - tu.
    Definition kmu : Z := 6 * l - 2 * tu.
    Ltac kk := unfold kv, kmu in *.
    Lemma sigma_rel (x v : V3 (option bf)) (x' v' : V3 bf) (mu : option bf) (m : bf) : RV (2 * l) x x' -> RV kv v v' -> Rl kmu mu m ->
      Rl l (@sigma_fn _ W x v mu) (@sigma_fn _ N x' v' m).
    Proof using I K0 HK.
      intros X V M. assert (Q : Rl (3 * l - tu) (@n_sqrt _ W mu) (@n_sqrt _ N m)) by (apply (Rsqrt kmu); [kk; lia|kk; lia|assumption]).
      unfold sigma_fn. kk. fin.
    Qed.
    Lemma alpha_rel (r v mu : option bf) (r' v' m : bf) : Rl (2 * l) r r' -> Rl kv v v' -> Rl kmu mu m ->
      Rl (-2 * l) (@alpha_of _ W r v mu) (@alpha_of _ N r' v' m).
    Proof using I K0 HK. intros X V M. unfold alpha_of, semimajor_axis. kk. fin. Qed.

    Section Solve.
      Context (dt al r0 s0 mu tol : option bf) (dt' al' r0' s0' mu' tol' : bf)
        (Hdt : Rl tu dt dt') (Hal : Rl (-2 * l) al al') (Hr0 : Rl (2 * l) r0 r0') (Hs0 : Rl l s0 s0') (Hmu : Rl kmu mu mu')
        (Htol : Rl (3 * l) tol tol') (Stol : tol <> None).
      Lemma sqmu : Rl (3 * l - tu) (@n_sqrt _ W mu) (@n_sqrt _ N mu').
      Proof using I K0 HK Hmu. apply (Rsqrt kmu); [kk; lia|kk; lia|assumption]. Qed.
      Lemma equ_rel (chi : option bf) (c : bf) : Rl l chi c ->
        Rl (3 * l) (@kepler_equ_uni _ W chi al r0 s0 dt mu) (@kepler_equ_uni _ N c al' r0' s0' dt' mu').
      Proof using I K0 HK Hdt Hal Hr0 Hs0 Hmu.
        intros C. pose proof sqmu as Q. pose proof (u1_rel _ _ _ _ C Hal) as U1. pose proof (u2_rel _ _ _ _ C Hal) as U2. pose proof (u3_rel _ _ _ _ C Hal) as U3.
        unfold kepler_equ_uni. kk. fin.
      Qed.
      Lemma dchi_rel (chi : option bf) (c : bf) : Rl l chi c -> Rl (2 * l) (@dchi _ W chi al r0 s0) (@dchi _ N c al' r0' s0').
      Proof using I K0 HK Hal Hr0 Hs0.
        intros C. pose proof (u0_rel _ _ _ _ C Hal) as U0. pose proof (u1_rel _ _ _ _ C Hal) as U1. pose proof (u2_rel _ _ _ _ C Hal) as U2.
        unfold dchi, equ_of_orb_uvi. kk. fin.
      Qed.
      Lemma newton_rel (chi : option bf) (c : bf) : Rl l chi c ->
        Rl l (@uni_newton _ W dt al r0 s0 mu chi) (@uni_newton _ N dt' al' r0' s0' mu' c).
      Proof using I K0 HK Hdt Hal Hr0 Hs0 Hmu.
        intros C. pose proof (equ_rel _ _ C) as E. pose proof (dchi_rel _ _ C) as D. unfold uni_newton. kk. fin.
      Qed.
      Lemma guess_rel : Rl l (@uni_guess _ W dt al mu) (@uni_guess _ N dt' al' mu').
      Proof using I K0 HK Hdt Hal Hmu. pose proof sqmu as Q. unfold uni_guess. fin. Qed.
      Lemma test_rel (chi : option bf) (c : bf) : Rl l chi c ->
        @uni_newton _ W dt al r0 s0 mu chi = None /\ @exceeds _ W (@kepler_equ_uni _ W chi al r0 s0 dt mu) tol = true \/
        @exceeds _ W (@kepler_equ_uni _ W chi al r0 s0 dt mu) tol = @exceeds _ N (@kepler_equ_uni _ N c al' r0' s0' dt' mu') tol'.
      Proof using I K0 HK Hdt Hal Hr0 Hs0 Hmu Htol Stol.
        intros C. pose proof (equ_rel _ _ C) as E. unfold uni_newton.
        destruct (@kepler_equ_uni _ W chi al r0 s0 dt mu) as [f|].
        - right. unfold exceeds, n_gt. apply (Rlt' (3 * l)); [assumption| |assumption|now apply Rabs'].
          cbn. discriminate.
        - left. split; [apply s_sub_r, s_div_l; reflexivity|]. unfold exceeds, n_gt. cbn. now destruct tol.
      Qed.
      Lemma none_stays (n : Z) (k : nat) : forall i p j q z, while_fuel k (@uni_cond _ W dt al r0 s0 mu tol n) (@uni_body _ W dt al r0 s0 mu) (i, None, p) = Some (j, z, q) -> z = None.
      Proof using.
        induction k as [|k IH]; intros i p j q z H; [discriminate|]. cbn [while_fuel] in H.
        destruct (@uni_cond _ W dt al r0 s0 mu tol n _) in H; [exact (IH _ _ _ _ _ H)|]. congruence.
      Qed.
      Lemma loop_rel (n : Z) (k : nat) : forall i x p y q,
        Rl l x y ->
        match while_fuel k (@uni_cond _ W dt al r0 s0 mu tol n) (@uni_body _ W dt al r0 s0 mu) (i, x, p),
              while_fuel k (@uni_cond _ N dt' al' r0' s0' mu' tol' n) (@uni_body _ N dt' al' r0' s0' mu') (i, y, q) with
        | Some (_, a, _), Some (_, b, _) => Rl l a b | _, _ => True end.
      Proof using I K0 HK Hdt Hal Hr0 Hs0 Hmu Htol Stol.
        induction k as [|k IH]; intros i x p y q C; [exact Logic.I|]. cbn [while_fuel].
        assert (B : uni_cond (N := W) dt al r0 s0 mu tol n (i, x, p) = (@exceeds _ W (@kepler_equ_uni _ W x al r0 s0 dt mu) tol && (i <? n))%bool) by reflexivity.
        assert (B' : uni_cond (N := N) dt' al' r0' s0' mu' tol' n (i, y, q) = (@exceeds _ N (@kepler_equ_uni _ N y al' r0' s0' dt' mu') tol' && (i <? n))%bool) by reflexivity.
        rewrite B, B'. clear B B'.
        change (uni_body (N := W) dt al r0 s0 mu (i, x, p)) with ((i + 1)%Z, @uni_newton _ W dt al r0 s0 mu x, x).
        change (uni_body (N := N) dt' al' r0' s0' mu' (i, y, q)) with ((i + 1)%Z, @uni_newton _ N dt' al' r0' s0' mu' y, y).
        destruct (test_rel _ _ C) as [[Hn Ht]|Ht]; rewrite Ht; clear Ht.
        - cbn [andb]. destruct (i <? n); [|rewrite Bool.andb_false_r; exact C]. rewrite Hn.
          destruct (while_fuel k (@uni_cond _ W dt al r0 s0 mu tol n) (@uni_body _ W dt al r0 s0 mu) _) as [[[j z] w]|] eqn:E; [|exact Logic.I]. apply none_stays in E. subst z.
          destruct (exceeds _ _ && true)%bool; [destruct (while_fuel k (@uni_cond _ N dt' al' r0' s0' mu' tol' n) _ _) as [[[? ?] ?]|]|]; exact Logic.I.
        - destruct (exceeds _ _ && _)%bool; [apply IH, newton_rel, C|exact C].
      Qed.
      Lemma solve_rel (n : Z) : Rl l (@solve_kepler_uni _ W dt al r0 s0 mu tol n) (@solve_kepler_uni _ N dt' al' r0' s0' mu' tol' n).
      Proof using I K0 HK Hdt Hal Hr0 Hs0 Hmu Htol Stol.
        destruct (uni_run_char (N := W) dt al r0 s0 mu tol n) as (k & _ & E & _). cbv zeta in E.
        destruct (uni_run_char (N := N) dt' al' r0' s0' mu' tol' n) as (k' & _ & E' & _). cbv zeta in E'.
        pose proof (loop_rel n (loop_fuel n) 0 _ (@n_add _ W (@uni_guess _ W dt al mu) (@n_mul _ W (@n_Z _ W 2) tol)) _ (@n_add _ N (@uni_guess _ N dt' al' mu') (@n_mul _ N (@n_Z _ N 2) tol')) guess_rel) as L.
        unfold solve_kepler_uni. unfold uni_run, uni_init in *. rewrite E, E' in L. rewrite E, E'. exact L.
      Qed.
    End Solve.

    Lemma state_rel (chi al s0 r0 mu : option bf) (x v : V3 (option bf)) (c al' s0' r0' mu' : bf) (x' v' : V3 bf) :
      Rl l chi c -> Rl (-2 * l) al al' -> Rl l s0 s0' -> Rl (2 * l) r0 r0' -> Rl kmu mu mu' -> RV (2 * l) x x' -> RV kv v v' ->
      RV (2 * l) (fst (@state_at_chi _ W chi al s0 r0 x v mu)) (fst (@state_at_chi _ N c al' s0' r0' x' v' mu')) /\
      RV kv (snd (@state_at_chi _ W chi al s0 r0 x v mu)) (snd (@state_at_chi _ N c al' s0' r0' x' v' mu')).
    Proof using I K0 HK.
      intros C Hal S R M X V. pose proof (sqmu _ _ M) as Q.
      pose proof (u0_rel _ _ _ _ C Hal) as U0. pose proof (u1_rel _ _ _ _ C Hal) as U1. pose proof (u2_rel _ _ _ _ C Hal) as U2.
      unfold state_at_chi, lagrange_prop, lagrange_F, lagrange_G, lagrange_Ft, lagrange_Gt, equ_of_orb_uvi. cbv zeta. cbn [fst snd]. kk. split; fin.
    Qed.
    Lemma kepler1_rel (t mu : option bf) (x v : V3 (option bf)) (t' mu' : bf) (x' v' : V3 bf) : l = 0 -> is_finite (@default_tol _ N) = true ->
      Rl tu t t' -> Rl kmu mu mu' -> RV (2 * l) x x' -> RV kv v v' ->
      RV (2 * l) (fst (@kepler1 _ W t x v mu)) (fst (@kepler1 _ N t' x' v' mu')) /\
      RV kv (snd (@kepler1 _ W t x v mu)) (snd (@kepler1 _ N t' x' v' mu')).
    Proof using I K0 HK.
      intros L Ft HT M X V. unfold kepler1. cbv zeta.
      assert (R : Rl (2 * l) (@vector_norm _ W x) (@vector_norm _ N x')) by fin.
      assert (R' : Rl kv (@vector_norm _ W v) (@vector_norm _ N v')) by (kk; fin).
      pose proof (alpha_rel _ _ _ _ _ _ R R' M) as A. pose proof (sigma_rel _ _ _ _ _ _ X V M) as S.
      apply state_rel; try assumption. apply solve_rel; try assumption.
      - rewrite L. apply Rdec.
      - unfold default_tol in *. cbn [W Num_W n_dec]. rewrite Ft. discriminate.
    Qed.

    Lemma dxdx0_rel (r v x w : V3 (option bf)) (t mu : option bf) (r' v' x' w' : V3 bf) (t' mu' : bf) :
      RV (2 * l) r r' -> RV kv v v' -> RV (2 * l) x x' -> RV kv w w' -> Rl tu t t' -> Rl kmu mu mu' ->
      let A := @dxdx0 _ W r v x w t mu in let B := @dxdx0 _ N r' v' x' w' t' mu' in
      RM 0 (b_rr A) (b_rr B) /\ RM tu (b_rv A) (b_rv B) /\ RM (- tu) (b_vr A) (b_vr B) /\ RM 0 (b_vv A) (b_vv B).
    Proof using I K0 HK.
      intros HR HV HX HW HT M A B.
      assert (Nr : Rl (2 * l) (@vector_norm _ W r) (@vector_norm _ N r')) by fin.
      assert (Nx : Rl (2 * l) (@vector_norm _ W x) (@vector_norm _ N x')) by fin.
      assert (Nw : Rl kv (@vector_norm _ W w) (@vector_norm _ N w')) by (kk; fin).
      pose proof (sqmu _ _ M) as Q. pose proof (alpha_rel _ _ _ _ _ _ Nx Nw M) as Al.
      pose proof (sigma_rel _ _ _ _ _ _ HR HV M) as S. pose proof (sigma_rel _ _ _ _ _ _ HX HW M) as S0.
      unfold A, B, dxdx0. cbv zeta. cbn [b_rr b_rv b_vr b_vv].
      set (al := alpha_of _ _ _) in *. set (al' := @alpha_of _ N _ _ _) in *.
      set (s := @sigma_fn _ W r v mu) in *. set (s0 := @sigma_fn _ W x w mu) in *.
      set (s' := @sigma_fn _ N r' v' mu') in *. set (s0' := @sigma_fn _ N x' w' mu') in *.
      assert (C : Rl l (@generalized_anomaly _ W al s s0 t mu) (@generalized_anomaly _ N al' s' s0' t' mu')) by (unfold generalized_anomaly; fin).
      set (chi := @generalized_anomaly _ W _ _ _ _ _) in *. set (chi' := @generalized_anomaly _ N _ _ _ _ _) in *.
      pose proof (u1_rel _ _ _ _ C Al) as U1. pose proof (u2_rel _ _ _ _ C Al) as U2. pose proof (u4_rel _ _ _ _ C Al) as U4. pose proof (u5_rel _ _ _ _ C Al) as U5.
      assert (CC : Rl (2 * l + tu) (@C_func _ W chi (@ufunc2 _ W chi al) (@ufunc4 _ W chi al) (@ufunc5 _ W chi al) t mu)
        (@C_func _ N chi' (@ufunc2 _ N chi' al') (@ufunc4 _ N chi' al') (@ufunc5 _ N chi' al') t' mu')) by (unfold C_func; fin).
      set (Cf := @C_func _ W _ _ _ _ _ _) in *. set (Cf' := @C_func _ N _ _ _ _ _ _) in *.
      clearbody Cf Cf'. clear U4 U5.
      assert (F : Rl 0 (@lagrange_F _ W (@ufunc2 _ W chi al) (@vector_norm _ W x)) (@lagrange_F _ N (@ufunc2 _ N chi' al') (@vector_norm _ N x'))) by (unfold lagrange_F; fin).
      assert (G : Rl tu (@lagrange_G _ W (@ufunc1 _ W chi al) (@ufunc2 _ W chi al) s0 (@vector_norm _ W x) mu) (@lagrange_G _ N (@ufunc1 _ N chi' al') (@ufunc2 _ N chi' al') s0' (@vector_norm _ N x') mu')) by (unfold lagrange_G; fin).
      assert (FT : Rl (- tu) (@lagrange_Ft _ W (@ufunc1 _ W chi al) (@vector_norm _ W r) (@vector_norm _ W x) mu) (@lagrange_Ft _ N (@ufunc1 _ N chi' al') (@vector_norm _ N r') (@vector_norm _ N x') mu')) by (unfold lagrange_Ft; fin).
      assert (GT : Rl 0 (@lagrange_Gt _ W (@ufunc2 _ W chi al) (@vector_norm _ W r)) (@lagrange_Gt _ N (@ufunc2 _ N chi' al') (@vector_norm _ N r'))) by (unfold lagrange_Gt; fin).
      set (f := @lagrange_F _ W _ _) in *. set (f' := @lagrange_F _ N _ _) in *. set (g := @lagrange_G _ W _ _ _ _ _) in *. set (g' := @lagrange_G _ N _ _ _ _ _) in *.
      set (ft := @lagrange_Ft _ W _ _ _ _) in *. set (ft' := @lagrange_Ft _ N _ _ _ _) in *. set (gt := @lagrange_Gt _ W _ _) in *. set (gt' := @lagrange_Gt _ N _ _) in *.
      clearbody f f' g g' ft ft' gt gt'. clear U1 U2 C S S0 Al Q.
      unfold prpr0, prpv0, pvpr0, pvpv0. cbv zeta. kk.
      split; [fin|split; [fin|split; [fin|fin]]].
    Qed.
  End Orbit.

  (** ** elements, path checks and forces: lengths [2^lam], times [2^tau] *)
  Section Elem.
    Context (lam tau : Z) (HK : 8 * Z.abs lam + 4 * Z.abs tau <= K).
    Section State.
      Context (x v : V3 (option bf)) (mu : option bf) (x' v' : V3 bf) (mu' : bf)
        (X : RV lam x x') (V : RV (lam - tau) v v') (M : Rl (3 * lam - 2 * tau) mu mu').
      Lemma h_rel : RV (2 * lam - tau) (@angular_momentum _ W x v) (@angular_momentum _ N x' v').
      Proof using I K0 HK X V. unfold angular_momentum. fin. Qed.
      Lemma ecc_rel : RV 0 (@eccentricity_vector _ W x v mu) (@eccentricity_vector _ N x' v' mu').
      Proof using I K0 HK X V M. pose proof h_rel as H. unfold eccentricity_vector. cbv zeta. fin. Qed.
      Lemma axis_rel : Rl lam (@semimajor_axis _ W (@vector_norm _ W x) (@vector_norm _ W v) mu) (@semimajor_axis _ N (@vector_norm _ N x') (@vector_norm _ N v') mu').
      Proof using I K0 HK X V M. unfold semimajor_axis. fin. Qed.
      Lemma h_mag_rel : Rl (2 * lam - tau) (@vector_norm _ W (@angular_momentum _ W x v)) (@vector_norm _ N (@angular_momentum _ N x' v')).
      Proof using I K0 HK X V. pose proof h_rel as H. fin. Qed.
      Lemma p_rel : Rl lam (@semiparameter _ W (@vector_norm _ W (@angular_momentum _ W x v)) mu) (@semiparameter _ N (@vector_norm _ N (@angular_momentum _ N x' v')) mu').
      Proof using I K0 HK X V M. pose proof h_mag_rel as H. unfold semiparameter. fin. Qed.
      Lemma e_mag_rel : Rl 0 (@vector_norm _ W (@eccentricity_vector _ W x v mu)) (@vector_norm _ N (@eccentricity_vector _ N x' v' mu')).
      Proof using I K0 HK X V M. pose proof ecc_rel as H. fin. Qed.
      Lemma incl_rel (h : V3 (option bf)) (h' : V3 bf) : RV (2 * lam - tau) h h' -> Rl 0 (@inclination _ W h) (@inclination _ N h').
      Proof using I K0 HK. intros H. pose proof (proj2 (proj2 H)) as H2. unfold inclination. fin. Qed.
      Lemma wrap_rel (t : option bf) (b : bf) : Rl 0 t b ->
        Rl 0 (where_ (@n_lt _ W t (@n_Z _ W 0)) (@n_add _ W (@n_mul _ W (@n_Z _ W 2) (@n_pi _ W)) t) t)
             (where_ (@n_lt _ N b (@n_Z _ N 0)) (@n_add _ N (@n_mul _ N (@n_Z _ N 2) (@n_pi _ N)) b) b).
      Proof using I K0 HK.
        intros A. destruct t as [a|].
        - rewrite (Rlt' 0 (Some a) _ b _ ltac:(discriminate) Z0_some A (RZ0 0)). apply Rwhere; [fin|exact A].
        - cbn [W Num_W n_lt where_]. rewrite s_add_r by reflexivity. exact Logic.I.
      Qed.
      Lemma node_rel (h : V3 (option bf)) (h' : V3 bf) : RV (2 * lam - tau) h h' -> RV (2 * lam - tau) (@node_vec _ W h) (@node_vec _ N h').
      Proof using I K0 HK.
        intros H. unfold node_vec. assert (E : RV 0 (mk3 (@n_Z _ W 0) (@n_Z _ W 0) (@n_Z _ W 1)) (mk3 (@n_Z _ N 0) (@n_Z _ N 0) (@n_Z _ N 1))) by (apply Jmk; apply RZ). fin.
      Qed.
      Lemma raan_rel (n : V3 (option bf)) (n' : V3 bf) (k : Z) : hom_arctan2 -> RV k n n' -> Rl 0 (@right_ascension _ W n) (@right_ascension _ N n').
      Proof using I K0 HK. intros Ha (A0 & A1 & _). unfold right_ascension. cbv zeta. apply wrap_rel. now apply (Ratan k). Qed.
      Lemma argp_rel (n e : V3 (option bf)) (n' e' : V3 bf) : hom_arctan2 -> RV (2 * lam - tau) n n' -> RV 0 e e' -> Rl 0 (@argument_of_periapsis _ W n e) (@argument_of_periapsis _ N n' e').
      Proof using I K0 HK. intros Ha A B. unfold argument_of_periapsis. cbv zeta. apply wrap_rel. apply (Ratan (2 * lam - tau)); [exact Ha|fin|fin]. Qed.
      Lemma anom_rel (n e : V3 (option bf)) (n' e' : V3 bf) : hom_arctan2 -> RV lam n n' -> RV 0 e e' -> Rl 0 (@true_anomaly _ W n e) (@true_anomaly _ N n' e').
      Proof using I K0 HK. intros Ha A B. unfold true_anomaly. cbv zeta. apply wrap_rel. apply (Ratan lam); [exact Ha|fin|fin]. Qed.
      Lemma rv2coe_rel : hom_arctan2 -> let A := @rv2coe _ W x v mu in let B := @rv2coe _ N x' v' mu' in
        Rl lam (coe_p A) (coe_p B) /\ Rl 0 (coe_e A) (coe_e B) /\ Rl 0 (coe_incl A) (coe_incl B) /\
        Rl 0 (coe_raan A) (coe_raan B) /\ Rl 0 (coe_argp A) (coe_argp B) /\ Rl 0 (coe_f A) (coe_f B).
      Proof using I K0 HK X V M.
        intros Ha A B. unfold A, B, rv2coe. cbv zeta. cbn [coe_p coe_e coe_incl coe_raan coe_argp coe_f].
        pose proof h_rel as H. pose proof ecc_rel as E. pose proof (node_rel _ _ H) as Nd.
        split; [apply p_rel|split; [apply e_mag_rel|split; [now apply incl_rel|split; [now apply (raan_rel _ _ (2 * lam - tau))|split; [now apply argp_rel|now apply anom_rel]]]]].
      Qed.
      Lemma rp_rel : Rl lam (@radius_periapsis _ W (@semiparameter _ W (@vector_norm _ W (@angular_momentum _ W x v)) mu) (@vector_norm _ W (@eccentricity_vector _ W x v mu)))
         (@radius_periapsis _ N (@semiparameter _ N (@vector_norm _ N (@angular_momentum _ N x' v')) mu') (@vector_norm _ N (@eccentricity_vector _ N x' v' mu'))).
      Proof using I K0 HK X V M. pose proof p_rel as P. pose proof e_mag_rel as E. unfold radius_periapsis. fin. Qed.
    End State.
    Lemma rot_rel (t : option bf) (b : bf) : Rl 0 t b -> RM 0 (@rotmat3dz _ W t) (@rotmat3dz _ N b) /\ RM 0 (@rotmat3dx _ W t) (@rotmat3dx _ N b).
    Proof using I K0.
      intros A. pose proof (Rsin _ _ A) as S. pose proof (Rcos _ _ A) as C. pose proof (Rneg _ _ _ S) as S'. pose proof (RZ 0) as Z0. pose proof (RZ 1) as Z1.
      unfold rotmat3dz, rotmat3dx. cbv zeta. repeat split; assumption.
    Qed.
    Lemma coe2rv_rel (p e i ra ap f mu : option bf) (p' e' i' ra' ap' f' mu' : bf) :
      Rl lam p p' -> Rl 0 e e' -> Rl 0 i i' -> Rl 0 ra ra' -> Rl 0 ap ap' -> Rl 0 f f' -> Rl (3 * lam - 2 * tau) mu mu' ->
      RV lam (fst (@coe2rv _ W p e i ra ap f mu)) (fst (@coe2rv _ N p' e' i' ra' ap' f' mu')) /\
      RV (lam - tau) (snd (@coe2rv _ W p e i ra ap f mu)) (snd (@coe2rv _ N p' e' i' ra' ap' f' mu')).
    Proof using I K0 HK.
      intros P E Hi Ra Ap F M. unfold coe2rv. cbv zeta. cbn [fst snd].
      destruct (rot_rel _ _ Ra) as [R1 _]. destruct (rot_rel _ _ Hi) as [_ R2]. destruct (rot_rel _ _ Ap) as [R3 _].
      assert (Q : Rl (lam - tau) (@n_sqrt _ W (@n_div _ W mu p)) (@n_sqrt _ N (@n_div _ N mu' p'))) by (apply (Rsqrt (2 * lam - 2 * tau)); [lia|lia|fin]).
      assert (V1 : RV 0 (mk3 (@n_cos _ W f) (@n_sin _ W f) (@n_Z _ W 0)) (mk3 (@n_cos _ N f') (@n_sin _ N f') (@n_Z _ N 0))) by (apply Jmk; fin).
      assert (V2 : RV 0 (mk3 (@n_neg _ W (@n_sin _ W f)) (@n_add _ W e (@n_cos _ W f)) (@n_Z _ W 0)) (mk3 (@n_neg _ N (@n_sin _ N f')) (@n_add _ N e' (@n_cos _ N f')) (@n_Z _ N 0))) by (apply Jmk; fin).
      split; fin.
    Qed.
    (** formulas on scalars *)
    Lemma period_rel (a mu : option bf) (a' mu' : bf) : Rl lam a a' -> Rl (3 * lam - 2 * tau) mu mu' -> Rl tau (@orb_period _ W a mu) (@orb_period _ N a' mu').
    Proof using I K0 HK.
      intros A M. assert (Q : Rl tau (@n_sqrt _ W (@n_div _ W (@npow _ W a 3) mu)) (@n_sqrt _ N (@n_div _ N (@npow _ N a' 3) mu'))) by (apply (Rsqrt (2 * tau)); [lia|lia|fin]).
      unfold orb_period. fin.
    Qed.
    Lemma elps_rel (a t mu : option bf) (a' t' mu' : bf) : Rl lam a a' -> Rl tau t t' -> Rl (3 * lam - 2 * tau) mu mu' ->
      Rl 0 (@mean_anomaly_elps _ W a t mu) (@mean_anomaly_elps _ N a' t' mu') /\ Rl 0 (@mean_anomaly_hypb _ W a t mu) (@mean_anomaly_hypb _ N a' t' mu').
    Proof using I K0 HK.
      intros A T M. assert (Q : Rl (- tau) (@n_sqrt _ W (@n_div _ W mu (@npow _ W a 3))) (@n_sqrt _ N (@n_div _ N mu' (@npow _ N a' 3)))) by (apply (Rsqrt (-2 * tau)); [lia|lia|fin]).
      assert (Q' : Rl (- tau) (@n_sqrt _ W (@n_div _ W mu (@n_neg _ W (@npow _ W a 3)))) (@n_sqrt _ N (@n_div _ N mu' (@n_neg _ N (@npow _ N a' 3))))) by (apply (Rsqrt (-2 * tau)); [lia|lia|fin]).
      unfold mean_anomaly_elps, mean_anomaly_hypb. split; fin.
    Qed.
    Lemma nmax_rel (rp r1 r2 t mu : option bf) (rp' r1' r2' t' mu' : bf) : Rl lam rp rp' -> Rl lam r1 r1' -> Rl lam r2 r2' -> Rl tau t t' -> Rl (3 * lam - 2 * tau) mu mu' ->
      Rl 0 (@nmax_by_periapsis _ W rp r1 r2 t mu) (@nmax_by_periapsis _ N rp' r1' r2' t' mu').
    Proof using I K0 HK.
      intros Rp R1 R2 T M. pose proof (Rmax _ _ _ _ _ R1 R2) as Mx. unfold nmax_by_periapsis. cbv zeta. apply Rfloor.
      assert (A : Rl lam (@n_mul _ W (@n_dec _ W 1 2) (@n_add _ W (@n_max _ W r1 r2) rp)) (@n_mul _ N (@n_dec _ N 1 2) (@n_add _ N (@n_max _ N r1' r2') rp'))) by fin.
      assert (Q := proj1 (elps_rel _ _ _ _ _ _ A T M)).
      match goal with |- Rl _ (n_mul _ (n_sqrt (n_div mu (npow ?a 3)))) (n_mul _ (n_sqrt (n_div mu' (npow ?a' 3)))) =>
        assert (Q' : Rl (- tau) (@n_sqrt _ W (@n_div _ W mu (@npow _ W a 3))) (@n_sqrt _ N (@n_div _ N mu' (@npow _ N a' 3)))) by (apply (Rsqrt (-2 * tau)); [lia|lia|fin]) end.
      fin.
    Qed.
    (** ** the path checks *)
    Section Path.
      Context (r1 v1 r2 : V3 (option bf)) (mu rmin : option bf) (r1' v1' r2' : V3 bf) (mu' rmin' : bf)
        (A1 : RV lam r1 r1') (B1 : RV (lam - tau) v1 v1') (A2 : RV lam r2 r2') (M : Rl (3 * lam - 2 * tau) mu mu') (Rm : Rl lam rmin rmin') (Sm : rmin <> None).
      Lemma pos_rel (k : Z) (t : option bf) (b : bf) : t <> None -> Rl k t b -> @n_gt _ N b (@n_Z _ N 0) = @n_gt _ W t (@n_Z _ W 0).
      Proof using I K0. intros S A. unfold n_gt. symmetry. apply (Rlt' k); [apply Z0_some|exact S|apply RZ0|exact A]. Qed.
      Lemma short_rel : @vinner _ W (@vcross _ W r1 v1) (@vcross _ W r1 r2) <> None -> @is_short_way _ N r1' v1' r2' = @is_short_way _ W r1 v1 r2.
      Proof using I K0 HK A1 B1 A2. intros S. unfold is_short_way. apply (pos_rel (4 * lam - tau)); [exact S|fin]. Qed.
      Lemma perigee_rel : let e := @eccentricity_vector _ W r1 v1 mu in
        @vinner _ W (@vcross _ W r1 v1) (@vcross _ W r1 r2) <> None -> @vinner _ W (@vcross _ W r1 r2) (@vcross _ W r1 e) <> None ->
        @vinner _ W (@vcross _ W r1 r2) (@vcross _ W e r2) <> None ->
        @pass_perigee _ N r1' v1' r2' mu' = @pass_perigee _ W r1 v1 r2 mu.
      Proof using I K0 HK A1 B1 A2 M.
        intros e S1 S2 S3. pose proof (ecc_rel _ _ _ _ _ _ A1 B1 M) as E. fold e in E. unfold pass_perigee. cbv zeta. fold e. rewrite short_rel by exact S1.
        f_equal. f_equal; (apply (pos_rel (3 * lam)); [assumption|fin]).
      Qed.
      Lemma rpmin_rel : @radius_periapsis _ W (@semiparameter _ W (@vector_norm _ W (@angular_momentum _ W r1 v1)) mu) (@vector_norm _ W (@eccentricity_vector _ W r1 v1 mu)) <> None ->
        @rp_islower_rmin _ N rmin' r1' v1' mu' = @rp_islower_rmin _ W rmin r1 v1 mu.
      Proof using I K0 HK A1 B1 M Rm Sm. intros S. unfold rp_islower_rmin. cbv zeta. symmetry. apply (Rlt' lam); [exact S|exact Sm|now apply rp_rel|exact Rm]. Qed.
    End Path.
    (** ** the force models *)
    Definition Rres {A A' : Type} (P : A -> A' -> Prop) (a : res A) (b : res A') : Prop :=
      match a, b with Ok x, Ok y => P x y | Raise e, Raise e' => e = e' | _, _ => False end.
    Lemma Rbind {A A' B B' : Type} (P : A -> A' -> Prop) (Q : B -> B' -> Prop) (m : res A) (m' : res A') (f : A -> res B) (f' : A' -> res B') :
      Rres P m m' -> (forall x y, P x y -> Rres Q (f x) (f' y)) -> Rres Q (bind m f) (bind m' f').
    Proof using. intros M F. destruct m, m'; cbn [bind Rres] in *; try contradiction; auto. Qed.
    Definition RD (d : list (string * option bf)) (d' : list (string * bf)) : Prop :=
      Forall2 (fun p q => fst q = fst p /\ Rl (unit_of lam tau (fst p)) (snd p) (snd q)) d d'.
    Definition RX (x : list (option bf)) (x' : list bf) : Prop := List.length x' = List.length x /\ Forall2 (Rl lam) (firstn 3 x) (firstn 3 x').
    Lemma look_rel (key : string) d d' : RD d d' -> Rres (Rl (unit_of lam tau key)) (@lookup _ key d) (@lookup _ key d').
    Proof using.
      intros H. induction H as [|[k a] [k' b] d d' [E A] _ IH]; [reflexivity|]. cbn [fst snd] in *. subst k'. cbn [lookup].
      destruct (String.eqb key k) eqn:Ek; [|exact IH]. apply String.eqb_eq in Ek. subst k. exact A.
    Qed.
    Lemma nth3 {A : Type} (x : list A) (i : nat) : (i < 3)%nat -> nth_error (firstn 3 x) i = nth_error x i.
    Proof using. clear. intros H. destruct x as [|a [|b [|c x]]]; destruct i as [|[|[|i]]]; try reflexivity; try lia; cbn; try now destruct i. Qed.
    Lemma Forall2_nth {A B : Type} (P : A -> B -> Prop) l l' (i : nat) : Forall2 P l l' ->
      match nth_error l i, nth_error l' i with Some a, Some b => P a b | None, None => True | _, _ => False end.
    Proof using. intros H. revert i. induction H; intros [|i]; cbn; auto. apply IHForall2. Qed.
    Lemma jget_rel x x' (i : nat) : (i < 3)%nat -> RX x x' -> Rres (Rl lam) (@jget _ x i) (@jget _ x' i).
    Proof using.
      intros Hi [E H]. unfold jget. rewrite E. set (j := Nat.min i (Datatypes.length x - 1)).
      rewrite <- (nth3 x j), <- (nth3 x' j) by (subst j; clear - Hi; lia).
      pose proof (Forall2_nth _ _ _ j H) as Q. destruct (nth_error (firstn 3 x) j), (nth_error (firstn 3 x') j); cbn; auto.
    Qed.
    Lemma norm3_rel x x' : RX x x' -> Rl lam (@norm_first3 _ W x) (@norm_first3 _ N x').
    Proof using I K0 HK.
      intros [_ H]. unfold norm_first3. apply (Rsqrt (2 * lam)); [lia|lia|]. unfold sumsq.
      destruct H as [|a b y y' A H]; [apply RZ0|].
      assert (Z : forall z z', Forall2 (Rl lam) z z' -> forall s s', Rl (2 * lam) s s' ->
        Rl (2 * lam) (fold_left (fun acc b => @n_add _ W acc (@n_mul _ W b b)) z s) (fold_left (fun acc b => @n_add _ N acc (@n_mul _ N b b)) z' s')).
      { intros z z' Q. induction Q as [|c d z z' Cd _ IH]; intros s s' S; [exact S|]. cbn [fold_left]. apply IH. apply Radd; [lia|exact S|]. apply (Rmul lam lam); [lia|lia|exact Cd|exact Cd]. }
      apply (Z _ _ H). apply (Rmul lam lam); [lia|lia|exact A|exact A].
    Qed.
    Section Force.
      Context (t : option bf) (t' : bf) (x : list (option bf)) (x' : list bf) (d : list (string * option bf)) (d' : list (string * bf)) (X : RX x x') (D : RD d d').
      Let RA := RV (lam - 2 * tau).
      Ltac lk key := eapply Rbind; [exact (look_rel key _ _ D)|]; cbn [unit_of String.eqb Ascii.eqb Bool.eqb orb]; intros ? ? ?.
      Ltac jg i := eapply Rbind; [apply (jget_rel _ _ i); [lia|exact X]|]; intros ? ? ?.
      Lemma pm_rel : Rres RA (@point_mass_grav _ W t x d) (@point_mass_grav _ N t' x' d').
      Proof using I K0 HK X D.
        pose proof (norm3_rel _ _ X) as R3. unfold point_mass_grav. lk "mu"%string. cbv zeta. jg 0%nat. jg 1%nat. jg 2%nat. cbn [Rres]. apply Jmk; fin.
      Qed.
      Lemma j2_rel : Rres RA (@j2_acc _ W t x d) (@j2_acc _ N t' x' d').
      Proof using I K0 HK X D.
        pose proof (norm3_rel _ _ X) as R3. unfold j2_acc. lk "mu"%string. lk "J2"%string. lk "R_eq"%string. cbv zeta. jg 2%nat. jg 0%nat. jg 1%nat. cbn [Rres]. apply Jmk; fin.
      Qed.
      Lemma j3_rel : Rres RA (@j3_acc _ W t x d) (@j3_acc _ N t' x' d').
      Proof using I K0 HK X D.
        pose proof (norm3_rel _ _ X) as R3. unfold j3_acc. lk "mu"%string. lk "J3"%string. lk "R_eq"%string. cbv zeta. jg 2%nat. jg 0%nat. jg 1%nat. cbn [Rres]. apply Jmk; fin.
      Qed.
      Lemma j4_rel : Rres RA (@j4_acc _ W t x d) (@j4_acc _ N t' x' d').
      Proof using I K0 HK X D.
        pose proof (norm3_rel _ _ X) as R3. unfold j4_acc. lk "mu"%string. lk "J4"%string. lk "R_eq"%string. cbv zeta. jg 2%nat. jg 0%nat. jg 1%nat. cbn [Rres]. apply Jmk; fin.
      Qed.
      Lemma low_rel : Rres (Rl lam) (@radius_islow _ W t x d) (@radius_islow _ N t' x' d').
      Proof using I K0 HK X D. pose proof (norm3_rel _ _ X) as R3. unfold radius_islow. lk "rmin"%string. cbn [Rres]. fin. Qed.
    End Force.
  End Elem.
End Calc.
