(** * SgnCalc: how the sign of an input travels through the formulas.

    [Rel s a a']: [a'] is [a] (for [s = false]) or [-a] (for [s = true]), except
    that the sign of a zero may differ.  The laws hold in rounded arithmetic
    ([SgnFloat]); everything below follows from them alone. *)
From Coq Require Import ZArith Bool List Lia.
From Verif Require Import Num OrbIntegrals Uniformulas Lagrange KepEqu StateTrans PropKepler PathCheck Gravity LoopFacts.
Import ListNotations.
Local Open Scope num_scope.

Section Calc.
  Context {T : Type} {N : Num T}.
  Definition flp (s : bool) (a : T) : T := if s then - a else a.
  Definition Rl (zero : T -> Prop) (s : bool) (a a' : T) : Prop := a' = flp s a \/ (zero a /\ zero a').

  Record sgn_laws (zero : T -> Prop) : Prop := {
    sl_mulf : forall s t a b, flp s a * flp t b = flp (xorb s t) (a * b);
    sl_mul : forall s t a a' b b', Rl zero s a a' -> Rl zero t b b' -> Rl zero (xorb s t) (a * b) (a' * b');
    sl_add : forall s a a' b b', Rl zero s a a' -> Rl zero s b b' -> Rl zero s (a + b) (a' + b');
    sl_sub : forall s a a' b b', Rl zero s a a' -> Rl zero s b b' -> Rl zero s (a - b) (a' - b');
    sl_neg : forall s a a', Rl zero s a a' -> Rl zero s (- a) (- a');
    sl_div : forall s a a' b, Rl zero s a a' -> Rl zero s (a / b) (a' / b);
    sl_sqr : forall s a a', Rl zero s a a' -> a' * a' = a * a;
    sl_abs : forall s a a', Rl zero s a a' -> n_abs a' = n_abs a;
    sl_lt : forall a a' b b', Rl zero false a a' -> Rl zero false b b' -> n_lt a' b' = n_lt a b;
    sl_zero : zero (#0);
    sl_negneg : forall a : T, - - a = a;
    sl_keep_l : forall a z z', zero z -> zero z' -> ~ zero a -> a + z' = a + z;
    sl_keep_r : forall a z z', zero z -> zero z' -> ~ zero a -> z' + a = z + a
  }.

  Context (zero : T -> Prop) (Lw : sgn_laws zero).
  Notation Rel := (Rl zero).

  Lemma Rfl (a : T) : Rel false a a. Proof using. left. reflexivity. Qed.
  Lemma Req (a a' : T) : a' = a -> Rel false a a'. Proof using. intros ->. apply Rfl. Qed.
  Lemma Rflip (s : bool) (a : T) : Rel s a (flp s a). Proof using. left. reflexivity. Qed.
  Lemma Rzero (s : bool) : Rel s (#0) (#0). Proof using Lw. right. split; apply (sl_zero _ Lw). Qed.
  Lemma Rmul (s t u : bool) (a a' b b' : T) : Rel s a a' -> Rel t b b' -> xorb s t = u -> Rel u (a * b) (a' * b').
  Proof using Lw. intros HA HB <-. now apply (sl_mul _ Lw). Qed.
  Lemma Radd (s : bool) (a a' b b' : T) : Rel s a a' -> Rel s b b' -> Rel s (a + b) (a' + b'). Proof using Lw. apply (sl_add _ Lw). Qed.
  Lemma Rsub (s : bool) (a a' b b' : T) : Rel s a a' -> Rel s b b' -> Rel s (a - b) (a' - b'). Proof using Lw. apply (sl_sub _ Lw). Qed.
  Lemma Rneg (s : bool) (a a' : T) : Rel s a a' -> Rel s (- a) (- a'). Proof using Lw. apply (sl_neg _ Lw). Qed.
  Lemma Rdiv (s : bool) (a a' b b' : T) : Rel s a a' -> b' = b -> Rel s (a / b) (a' / b'). Proof using Lw. intros H ->. now apply (sl_div _ Lw). Qed.
  Lemma Rsqr (s : bool) (a a' : T) : Rel s a a' -> a' * a' = a * a. Proof using Lw. apply (sl_sqr _ Lw). Qed.
  Lemma Rpow2 (s : bool) (a a' : T) : Rel s a a' -> a' ** 2 = a ** 2. Proof using Lw. apply Rsqr. Qed.
  Lemma Rpow3 (s : bool) (a a' : T) : Rel s a a' -> Rel s (a ** 3) (a' ** 3).
  Proof using Lw.
    intros H. change (Rel s (a * (a * a)) (a' * (a' * a'))). rewrite (Rsqr s a a' H).
    apply (Rmul s false); [exact H|apply Rfl|destruct s; reflexivity].
  Qed.
  Lemma Rpow4 (s : bool) (a a' : T) : Rel s a a' -> a' ** 4 = a ** 4.
  Proof using Lw. intros H. change (a' * a' * (a' * a') = a * a * (a * a)). now rewrite (Rsqr s a a' H). Qed.
  Lemma Rpow5 (s : bool) (a a' : T) : Rel s a a' -> Rel s (a ** 5) (a' ** 5).
  Proof using Lw.
    intros H. change (Rel s (a * (a * a * (a * a))) (a' * (a' * a' * (a' * a')))). rewrite (Rsqr s a a' H).
    apply (Rmul s false); [exact H|apply Rfl|destruct s; reflexivity].
  Qed.

  (** vectors: [Rel (xorb c (s i))] in component [i] *)
  Definition RV (c : bool) (s : V3 bool) (a a' : V3 T) : Prop :=
    Rel (xorb c (c0 s)) (c0 a) (c0 a') /\ Rel (xorb c (c1 s)) (c1 a) (c1 a') /\ Rel (xorb c (c2 s)) (c2 a) (c2 a').
  Definition RM (c : bool) (s : V3 bool) (A A' : M3 T) : Prop :=
    RV (xorb c (c0 s)) s (c0 A) (c0 A') /\ RV (xorb c (c1 s)) s (c1 A) (c1 A') /\ RV (xorb c (c2 s)) s (c2 A) (c2 A').
  Definition vflip (c : bool) (s : V3 bool) (a : V3 T) : V3 T :=
    mk3 (flp (xorb c (c0 s)) (c0 a)) (flp (xorb c (c1 s)) (c1 a)) (flp (xorb c (c2 s)) (c2 a)).
  Lemma RVflip (c : bool) (s : V3 bool) (a : V3 T) : RV c s a (vflip c s a).
  Proof using. repeat split; apply Rflip. Qed.

  Ltac bb := repeat match goal with |- context [xorb ?x ?y] => is_var x; destruct x | |- context [xorb ?x ?y] => is_var y; destruct y
             | |- context [c0 ?s] => is_var s; destruct s; cbn [c0 c1 c2] | |- context [c1 ?s] => is_var s; destruct s; cbn [c0 c1 c2]
             | |- context [c2 ?s] => is_var s; destruct s; cbn [c0 c1 c2] end; reflexivity.
  Lemma RVadd c s a a' b b' : RV c s a a' -> RV c s b b' -> RV c s (vadd a b) (vadd a' b').
  Proof using Lw. intros (A0 & A1 & A2) (B0 & B1 & B2). split; [|split]; now apply Radd. Qed.
  Lemma RVsub c s a a' b b' : RV c s a a' -> RV c s b b' -> RV c s (vsub a b) (vsub a' b').
  Proof using Lw. intros (A0 & A1 & A2) (B0 & B1 & B2). split; [|split]; now apply Rsub. Qed.
  Lemma RVneg c s a a' : RV c s a a' -> RV c s (vneg a) (vneg a').
  Proof using Lw. intros (A0 & A1 & A2). split; [|split]; now apply Rneg. Qed.
  Lemma RVscale c d u s k k' a a' : Rel c k k' -> RV d s a a' -> xorb c d = u -> RV u s (vscale k a) (vscale k' a').
  Proof using Lw. intros K (A0 & A1 & A2) <-. split; [|split]; (eapply Rmul; [exact K|eassumption|bb]). Qed.
  Lemma RVdivs c s k k' a a' : k' = k -> RV c s a a' -> RV c s (vdivs a k) (vdivs a' k').
  Proof using Lw. intros K (A0 & A1 & A2). split; [|split]; now apply Rdiv. Qed.
  Lemma Rinner c d u s a a' b b' : RV c s a a' -> RV d s b b' -> xorb c d = u -> Rel u (vinner a b) (vinner a' b').
  Proof using Lw.
    intros (A0 & A1 & A2) (B0 & B1 & B2) <-. unfold vinner. apply Radd; [apply Radd|]; (eapply Rmul; [eassumption|eassumption|bb]).
  Qed.
  Lemma Rnorm c s a a' : RV c s a a' -> vector_norm a' = vector_norm a.
  Proof using Lw.
    intros (A0 & A1 & A2). unfold vector_norm, vinner. now rewrite (Rsqr _ _ _ A0), (Rsqr _ _ _ A1), (Rsqr _ _ _ A2).
  Qed.
  Lemma inner_flip c s a b : vinner (vflip c s a) (vflip c s b) = vinner a b.
  Proof using Lw.
    unfold vinner, vflip. cbn [c0 c1 c2]. rewrite !(sl_mulf _ Lw), !xorb_nilpotent. reflexivity.
  Qed.
  Lemma RMadd c s A A' B B' : RM c s A A' -> RM c s B B' -> RM c s (madd A B) (madd A' B').
  Proof using Lw. intros (A0 & A1 & A2) (B0 & B1 & B2). split; [|split]; now apply RVadd. Qed.
  Lemma RMsub c s A A' B B' : RM c s A A' -> RM c s B B' -> RM c s (msub A B) (msub A' B').
  Proof using Lw. intros (A0 & A1 & A2) (B0 & B1 & B2). split; [|split]; now apply RVsub. Qed.
  Lemma RMneg c s A A' : RM c s A A' -> RM c s (mneg A) (mneg A').
  Proof using Lw. intros (A0 & A1 & A2). split; [|split]; now apply RVneg. Qed.
  Lemma RMscale c d u s k k' A A' : Rel c k k' -> RM d s A A' -> xorb c d = u -> RM u s (mscale k A) (mscale k' A').
  Proof using Lw. intros K (A0 & A1 & A2) <-. split; [|split]; (eapply RVscale; [exact K|eassumption|bb]). Qed.
  Lemma RMdivs c s k k' A A' : k' = k -> RM c s A A' -> RM c s (mdivs A k) (mdivs A' k').
  Proof using Lw. intros K (A0 & A1 & A2). split; [|split]; now apply RVdivs. Qed.
  Lemma RMouter c d u s a a' b b' : RV c s a a' -> RV d s b b' -> xorb c d = u -> RM u s (outer a b) (outer a' b').
  Proof using Lw.
    intros (A0 & A1 & A2) B <-. split; [|split]; (eapply RVscale; [eassumption|exact B|bb]).
  Qed.
  Lemma RMeye s : RM false s eye3 eye3.
  Proof using Lw.
    unfold RM, RV, eye3; cbn [c0 c1 c2]. destruct s as [p q r]; cbn [c0 c1 c2]. rewrite !xorb_false_l, !xorb_nilpotent.
    repeat split; try apply Rzero; apply Rfl.
  Qed.
  Lemma RVright c s k k' a a' : k' = k -> RV c s a a' -> RV c s (vmap3 (fun x => x * k) a) (vmap3 (fun x => x * k') a').
  Proof using Lw. intros -> (A0 & A1 & A2). split; [|split]; (eapply Rmul; [eassumption|apply Rfl|bb]). Qed.
  Lemma RMright c s k k' A A' : k' = k -> RM c s A A' ->
    RM c s (vmap3 (fun row => vmap3 (fun x => x * k) row) A) (vmap3 (fun row => vmap3 (fun x => x * k') row) A').
  Proof using Lw. intros K (A0 & A1 & A2). split; [|split]; now apply RVright. Qed.
  Lemma RMmul c d u s A A' B B' : RM c s A A' -> RM d s B B' -> xorb c d = u -> RM u s (mmul A B) (mmul A' B').
  Proof using Lw.
    intros ((A00 & A01 & A02) & (A10 & A11 & A12) & (A20 & A21 & A22)) ((B00 & B01 & B02) & (B10 & B11 & B12) & (B20 & B21 & B22)) <-.
    unfold mmul, RM, RV, vmap3, vinner, mcol; cbn [c0 c1 c2].
    repeat split; (apply Radd; [apply Radd|]; (eapply Rmul; [eassumption|eassumption|bb])).
  Qed.
End Calc.
