(** * B64Stm: rounding errors of the transition-matrix blocks in double precision (proofs for C90) *)
From Coq Require Import ZArith Reals Lra Lia Psatz Bool List.
From Flocq Require Import Core IEEE754.BinarySingleNaN.
From Verif Require Import Num NumB64 NumR Spec SpecFl SpecFl64 SpecFlV SpecFlStm RelLib RoundAn B64Lib B64Acc B64Rel B64An B64Geo StmReal.
From Verif Require Import Uniformulas Lagrange KepEqu StateTrans.
Local Open Scope R_scope.

Section Mat.
  Variable L : libm64.
  Let N : Num b64 := Num_B64 L.

  (** every entry measured by one [m] *)
  Definition Em64 (r : Z) (k : nat) (m : R) (A : M3 b64) (X : mat) : Prop :=
    Ev64 r k m (c0 A) (c0 X) /\ Ev64 r k m (c1 A) (c1 X) /\ Ev64 r k m (c2 A) (c2 X).

  Lemma Em_outer (a b : Z) (j k : nat) (m n : R) (A B : V3 b64) (p q : vec) : Ev64 a j m A p -> Ev64 b k n B q ->
    (a + b <= 1000)%Z -> (j + k <= 100)%nat -> Em64 (a + b) (S (j + k)) (m * n) (@outer _ N A B) (outer p q).
  Proof using L N. intros [X [Y Z]] Q H K. split; [| split]; (apply (Ev_scale L); assumption). Qed.
  Lemma Em_scale (a b : Z) (j k : nat) (m n : R) (s : b64) (B : M3 b64) (t : R) (Q : mat) : Er64 a j m s t -> Em64 b k n B Q ->
    (a + b <= 1000)%Z -> (j + k <= 100)%nat -> Em64 (a + b) (S (j + k)) (m * n) (@mscale _ N s B) (mscale t Q).
  Proof using L N. intros X [X' [Y' Z']] H K. split; [| split]; (apply (Ev_scale L); assumption). Qed.
  Lemma Em_add (a b : Z) (j k : nat) (m n : R) (A B : M3 b64) (P Q : mat) : Em64 a j m A P -> Em64 b k n B Q ->
    (Z.max a b + 1 <= 1000)%Z -> (Nat.max j k <= 100)%nat -> Em64 (Z.max a b + 1) (S (Nat.max j k)) (m + n) (@madd _ N A B) (madd P Q).
  Proof using L N. intros [X [Y Z]] [X' [Y' Z']] H K. split; [| split]; (apply (Ev_add L); assumption). Qed.
  Lemma Em_sub (a b : Z) (j k : nat) (m n : R) (A B : M3 b64) (P Q : mat) : Em64 a j m A P -> Em64 b k n B Q ->
    (Z.max a b + 1 <= 1000)%Z -> (Nat.max j k <= 100)%nat -> Em64 (Z.max a b + 1) (S (Nat.max j k)) (m + n) (@msub _ N A B) (msub P Q).
  Proof using L N. intros [X [Y Z]] [X' [Y' Z']] H K. split; [| split]; (apply (Ev_sub L); assumption). Qed.
  Lemma Em_neg (a : Z) (j : nat) (m : R) (A : M3 b64) (P : mat) : Em64 a j m A P -> Em64 a j m (@mneg _ N A) (mneg P).
  Proof using L N.
    intros [X [Y Z]]. assert (V : forall g p, Ev64 a j m g p -> Ev64 a j m (@vneg _ N g) (vneg p)).
    { intros g p [U [V W]]. split; [| split]; (apply (An_neg L); assumption). }
    split; [| split]; apply V; assumption.
  Qed.
  Lemma Em_divs (a b : Z) (j k : nat) (m : R) (s : b64) (B : M3 b64) (t : R) (Q : mat) : Em64 a j m B Q -> Er64 b k (Rabs t) s t ->
    t <> 0 -> (a + b <= 1000)%Z -> (j + k <= 80)%nat -> Em64 (a + b) (S (S (j + k))) (m / Rabs t) (@mdivs _ N B s) (mdivs Q t).
  Proof using L N. intros [X [Y Z]] T Nz H K. split; [| split]; (apply (Ev_divs L); assumption). Qed.
  Lemma Em_mulr (a b : Z) (j k : nat) (m n : R) (s : b64) (B : M3 b64) (t : R) (Q : mat) : Em64 a j m B Q -> Er64 b k n s t ->
    (a + b <= 1000)%Z -> (j + k <= 100)%nat ->
    Em64 (a + b) (S (j + k)) (m * n) (vmap3 (fun row => vmap3 (fun x => @n_mul _ N x s) row) B) (vmap3 (fun row => vmap3 (fun x => x * t) row) Q).
  Proof using L N.
    intros [X [Y Z]] T H K.
    assert (V : forall g p, Ev64 a j m g p -> Ev64 (a + b) (S (j + k)) (m * n) (vmap3 (fun x => @n_mul _ N x s) g) (vmap3 (fun x => x * t) p)).
    { intros g p [U [V W]]. split; [| split]; (apply (An_mul L); try assumption; lia). }
    split; [| split]; apply V; assumption.
  Qed.
  Lemma Em_mul (a b : Z) (j k : nat) (m n : R) (A B : M3 b64) (P Q : mat) : Em64 a j m A P -> Em64 b k n B Q ->
    (a + b + 2 <= 1000)%Z -> (j + k <= 100)%nat -> Em64 (a + b + 2) (j + k + 3) (3 * (m * n)) (@mmul _ N A B) (mmul P Q).
  Proof using L N.
    intros [X [Y Z]] [[U0 [U1 U2]] [[V0 [V1 V2]] [W0 [W1 W2]]]] H K.
    assert (V : forall g p, Ev64 a j m g p -> Ev64 (a + b + 2) (j + k + 3) (3 * (m * n))
      (mk3 (@vinner _ N g (mcol (@c0) B)) (@vinner _ N g (mcol (@c1) B)) (@vinner _ N g (mcol (@c2) B)))
      (mk3 (vinner p (mcol (@c0) Q)) (vinner p (mcol (@c1) Q)) (vinner p (mcol (@c2) Q)))).
    { intros g p G. split; [| split]; (apply (Ev_inner L); [exact G | | exact H | exact K]; split; [| split]; assumption). }
    split; [| split]; apply V; assumption.
  Qed.
  Lemma Em_weak (r r' : Z) (k k' : nat) (m m' : R) (g : M3 b64) (a : mat) : Em64 r k m g a -> m <= m' -> (k <= k')%nat ->
    in_range r' m' -> (0 <= r')%Z -> Em64 r' k' m' g a.
  Proof using L N. intros [X [Y Z]] H1 H2 H3 H4. split; [| split]; (eapply (Ev_weak L); eassumption). Qed.
  Lemma Em_eye : Em64 0 0 1 (@eye3 _ N) eye3.
  Proof using L N.
    pose proof (An_Z L 0 1 ltac:(lia) ltac:(lia) ltac:(lia)) as O. rewrite Rabs_R1 in O.
    pose proof (An_Z L 0 0 ltac:(lia) ltac:(lia) ltac:(lia)) as Z.
    apply (An_weak L _ 0 _ 0 _ 1) in Z; [| rewrite Rabs_R0; lra | lia | exact one_range | lia].
    split; [| split]; (split; [| split]); assumption.
  Qed.
  Lemma Em_final (C : R) (r : Z) (k : nat) (m m' : R) (g : M3 b64) (a a' : mat) : Em64 r k m g a -> (k <= 90)%nat ->
    INR k + 1 <= C -> m <= m' -> a = a' -> off64m C m' g a'.
  Proof using L N.
    intros [X [Y Z]] K HC M <-. split; [| split]; (eapply (Ev_final L); [eassumption | exact K | exact HC | exact M | reflexivity]).
  Qed.
End Mat.

Section Stm.
  Variable L : libm64.
  Let N : Num b64 := Num_B64 L.
  Variables (r v r0 v0 : V3 b64) (mu : b64) (k : nat).
  Hypotheses (Hk : (k <= 50)%nat) (Gr : good64v 60 r) (Gv : good64v 60 v) (Gr0 : good64v 60 r0) (Gv0 : good64v 60 v0)
    (Gm : good64 60 mu) (Pm : 0 < B2R mu) (Nr : real64 r <> vzero) (Nr0 : real64 r0 <> vzero).
  Let Q : R := vnorm (real64 r).
  Let Q0 : R := vnorm (real64 r0).
  Let V : R := vnorm (real64 v).
  Let V0 : R := vnorm (real64 v0).
  Let M : R := B2R mu.

  Lemma Q_pos : 0 < Q. Proof using All. apply sqrt_lt_R0, dot_pos_nz. exact Nr. Qed.
  Lemma Q0_pos : 0 < Q0. Proof using All. apply sqrt_lt_R0, dot_pos_nz. exact Nr0. Qed.
  Lemma V_pos : 0 <= V. Proof using All. apply sqrt_pos. Qed.
  Lemma V0_pos : 0 <= V0. Proof using All. apply sqrt_pos. Qed.
  Lemma M_pos : 0 < M. Proof using All. exact Pm. Qed.
  Lemma Rr : Ev64 60 0 Q r (real64 r). Proof using All. exact (Ev_good L 60 r ltac:(lia) Gr). Qed.
  Lemma Rr0 : Ev64 60 0 Q0 r0 (real64 r0). Proof using All. exact (Ev_good L 60 r0 ltac:(lia) Gr0). Qed.
  Lemma Rv : Ev64 60 0 V v (real64 v). Proof using All. exact (Ev_good L 60 v ltac:(lia) Gv). Qed.
  Lemma Rv0 : Ev64 60 0 V0 v0 (real64 v0). Proof using All. exact (Ev_good L 60 v0 ltac:(lia) Gv0). Qed.
  Lemma Rm : Er64 60 0 (Rabs M) mu M. Proof using All. exact (An_good L 60 mu ltac:(lia) Gm). Qed.
  Lemma nQ : Er64 60 3 (Rabs Q) (@vector_norm _ N r) Q.
  Proof using All. rewrite Rabs_pos_eq by (pose proof Q_pos; lra). exact (Ev_norm0 L 60 r Gr Nr ltac:(lia) ltac:(lia)). Qed.
  Lemma nQ0 : Er64 60 3 (Rabs Q0) (@vector_norm _ N r0) Q0.
  Proof using All. rewrite Rabs_pos_eq by (pose proof Q0_pos; lra). exact (Ev_norm0 L 60 r0 Gr0 Nr0 ltac:(lia) ltac:(lia)). Qed.
  Lemma sQ : Er64 120 7 (Rabs (Q * Q)) (@n_mul _ N (@vector_norm _ N r) (@vector_norm _ N r)) (Q * Q).
  Proof using All. rewrite Rabs_mult. exact (An_mul L _ _ _ _ _ _ _ _ _ _ nQ nQ ltac:(lia) ltac:(lia)). Qed.
  Lemma sQ0 : Er64 120 7 (Rabs (Q0 * Q0)) (@n_mul _ N (@vector_norm _ N r0) (@vector_norm _ N r0)) (Q0 * Q0).
  Proof using All. rewrite Rabs_mult. exact (An_mul L _ _ _ _ _ _ _ _ _ _ nQ0 nQ0 ltac:(lia) ltac:(lia)). Qed.
  Lemma aQ : Rabs Q = Q. Proof using All. apply Rabs_pos_eq. pose proof Q_pos; lra. Qed.
  Lemma aQ0 : Rabs Q0 = Q0. Proof using All. apply Rabs_pos_eq. pose proof Q0_pos; lra. Qed.
  Lemma aM : Rabs M = M. Proof using All. apply Rabs_pos_eq. pose proof M_pos; lra. Qed.
  Lemma aQQ : Rabs (Q * Q) = Q * Q. Proof using All. apply Rabs_pos_eq. pose proof Q_pos; nra. Qed.
  Lemma aQQ0 : Rabs (Q0 * Q0) = Q0 * Q0. Proof using All. apply Rabs_pos_eq. pose proof Q0_pos; nra. Qed.
  Lemma dV : Ev64 61 1 (V + V0) (@vsub _ N v v0) (vsub (real64 v) (real64 v0)).
  Proof using All. exact (Ev_sub L _ _ _ _ _ _ _ _ _ _ Rv Rv0 ltac:(lia) ltac:(lia)). Qed.
  Lemma dR : Ev64 61 1 (Q + Q0) (@vsub _ N r r0) (vsub (real64 r) (real64 r0)).
  Proof using All. exact (Ev_sub L _ _ _ _ _ _ _ _ _ _ Rr Rr0 ltac:(lia) ltac:(lia)). Qed.
  Lemma ur : Ev64 0 5 1 (@vdivs _ N r (@vector_norm _ N r)) (vdivs (real64 r) Q).
  Proof using All.
    pose proof Q_pos as P. pose proof (Ev_divs L _ _ _ _ _ _ _ _ _ Rr nQ ltac:(lra) ltac:(lia) ltac:(lia)) as E.
    rewrite aQ in E. replace (Q / Q) with 1 in E by (field; lra).
    exact (Ev_weak L _ 0 _ 5 1 1 _ _ E ltac:(lra) ltac:(lia) one_range ltac:(lia)).
  Qed.
  Lemma ur0 : Ev64 0 5 1 (@vdivs _ N r0 (@vector_norm _ N r0)) (vdivs (real64 r0) Q0).
  Proof using All.
    pose proof Q0_pos as P. pose proof (Ev_divs L _ _ _ _ _ _ _ _ _ Rr0 nQ0 ltac:(lra) ltac:(lia) ltac:(lia)) as E.
    rewrite aQ0 in E. replace (Q0 / Q0) with 1 in E by (field; lra).
    exact (Ev_weak L _ 0 _ 5 1 1 _ _ E ltac:(lra) ltac:(lia) one_range ltac:(lia)).
  Qed.

  (** coefficients with errors of their own *)
  Variables (F C : b64) (Fv Cv mF mC : R).
  Hypotheses (HF : Er64 450 k mF F Fv) (HC : Er64 650 k mC C Cv).
  Lemma oneF : Er64 451 (S k) (1 + mF) (@n_sub _ N (@n_Z _ N 1) F) (1 - Fv).
  Proof using All.
    pose proof (An_Z L 0 1 ltac:(lia) ltac:(lia) ltac:(lia)) as O. rewrite Rabs_R1 in O.
    pose proof (An_sub L _ _ _ _ _ _ _ _ _ _ O HF ltac:(lia) ltac:(lia)) as E. exact E.
  Qed.
  Lemma INRk (n : nat) : INR (k + n) = INR k + INR n. Proof using All. apply plus_INR. Qed.

  Lemma rr_ok : off64m (INR k + 19) (stm_rr_size M Q V Q0 V0 mF mC) (@prpr0 _ N r v r0 v0 F C mu)
    (stm_rr M (real64 r) (real64 v) (real64 r0) (real64 v0) Fv Cv).
  Proof using All.
    pose proof Q_pos as P. pose proof Q0_pos as P0. pose proof M_pos as PM.
    pose proof (Em_outer L _ _ _ _ _ _ _ _ _ _ dV dV ltac:(lia) ltac:(lia)) as O1.
    pose proof (An_div1 L _ _ _ _ _ _ _ _ _ nQ Rm ltac:(lra) ltac:(lia) ltac:(lia)) as D1.
    pose proof (Em_scale L _ _ _ _ _ _ _ _ _ _ D1 O1 ltac:(lia) ltac:(lia)) as T1.
    pose proof (Ev_divs L _ _ _ _ _ _ _ _ _ Rr nQ0 ltac:(lra) ltac:(lia) ltac:(lia)) as W.
    pose proof (Em_outer L _ _ _ _ _ _ _ _ _ _ W ur0 ltac:(lia) ltac:(lia)) as O2.
    pose proof (Em_scale L _ _ _ _ _ _ _ _ _ _ oneF O2 ltac:(lia) ltac:(lia)) as T2.
    pose proof (An_div1 L _ _ _ _ _ _ _ _ _ HC sQ0 ltac:(nra) ltac:(lia) ltac:(lia)) as D3.
    pose proof (Em_outer L _ _ _ _ _ _ _ _ _ _ Rv ur0 ltac:(lia) ltac:(lia)) as O3.
    pose proof (Em_scale L _ _ _ _ _ _ _ _ _ _ D3 O3 ltac:(lia) ltac:(lia)) as T3.
    pose proof (Em_scale L _ _ _ _ _ _ _ _ _ _ HF (Em_eye L) ltac:(lia) ltac:(lia)) as T4.
    pose proof (Em_add L _ _ _ _ _ _ _ _ _ _ T1 T2 ltac:(lia) ltac:(lia)) as S1.
    pose proof (Em_add L _ _ _ _ _ _ _ _ _ _ S1 T3 ltac:(lia) ltac:(lia)) as S2.
    pose proof (Em_add L _ _ _ _ _ _ _ _ _ _ S2 T4 ltac:(lia) ltac:(lia)) as S3.
    refine (Em_final L (INR k + 19) _ _ _ _ _ _ _ S3 _ _ _ _); [lia | | |].
    - match goal with |- INR ?a + 1 <= _ => replace a with (k + 18)%nat by lia end. rewrite INRk. simpl INR. lra.
    - right. rewrite !aM, !aQ, !aQ0, !aQQ0. unfold stm_rr_size. field. lra.
    - apply prpr0_real; [exact Nr | exact Nr0 | exact Pm].
  Qed.

  Lemma vv_ok (Gt : b64) (Gtv mGt : R) : Er64 450 k mGt Gt Gtv ->
    off64m (INR k + 26) (stm_vv_size M Q V Q0 V0 mF mGt mC) (@pvpv0 _ N r v r0 v0 F Gt C mu)
    (stm_vv M (real64 r) (real64 v) (real64 r0) (real64 v0) Fv Gtv Cv).
  Proof using All.
    intro HG. pose proof Q_pos as P. pose proof Q0_pos as P0. pose proof M_pos as PM.
    pose proof (Em_outer L _ _ _ _ _ _ _ _ _ _ dV dV ltac:(lia) ltac:(lia)) as O1.
    pose proof (An_div1 L _ _ _ _ _ _ _ _ _ nQ0 Rm ltac:(lra) ltac:(lia) ltac:(lia)) as D1.
    pose proof (Em_scale L _ _ _ _ _ _ _ _ _ _ D1 O1 ltac:(lia) ltac:(lia)) as T1.
    pose proof (Ev_divs L _ _ _ _ _ _ _ _ _ Rr0 nQ ltac:(lra) ltac:(lia) ltac:(lia)) as W.
    pose proof (Em_outer L _ _ _ _ _ _ _ _ _ _ ur W ltac:(lia) ltac:(lia)) as O2.
    pose proof (Em_scale L _ _ _ _ _ _ _ _ _ _ oneF O2 ltac:(lia) ltac:(lia)) as T2.
    pose proof (Em_mulr L _ _ _ _ _ _ _ _ _ _ T2 nQ0 ltac:(lia) ltac:(lia)) as T2'.
    pose proof (Em_divs L _ _ _ _ _ _ _ _ _ T2' nQ ltac:(lra) ltac:(lia) ltac:(lia)) as T2''.
    pose proof (An_div1 L _ _ _ _ _ _ _ _ _ HC sQ ltac:(nra) ltac:(lia) ltac:(lia)) as D3.
    pose proof (Em_outer L _ _ _ _ _ _ _ _ _ _ ur Rv0 ltac:(lia) ltac:(lia)) as O3.
    pose proof (Em_scale L _ _ _ _ _ _ _ _ _ _ D3 O3 ltac:(lia) ltac:(lia)) as T3.
    pose proof (Em_scale L _ _ _ _ _ _ _ _ _ _ HG (Em_eye L) ltac:(lia) ltac:(lia)) as T4.
    pose proof (Em_add L _ _ _ _ _ _ _ _ _ _ T1 T2'' ltac:(lia) ltac:(lia)) as S1.
    pose proof (Em_sub L _ _ _ _ _ _ _ _ _ _ S1 T3 ltac:(lia) ltac:(lia)) as S2.
    pose proof (Em_add L _ _ _ _ _ _ _ _ _ _ S2 T4 ltac:(lia) ltac:(lia)) as S3.
    refine (Em_final L (INR k + 26) _ _ _ _ _ _ _ S3 _ _ _ _); [lia | | |].
    - match goal with |- INR ?a + 1 <= _ => replace a with (k + 25)%nat by lia end. rewrite INRk. simpl INR. lra.
    - right. rewrite !aM, !aQ, !aQ0, !aQQ. unfold stm_vv_size. field. lra.
    - apply pvpv0_real; [exact Nr | exact Nr0 | exact Pm].
  Qed.

  Lemma rv_ok (G : b64) (Gval mG : R) : Er64 450 k mG G Gval ->
    off64m (INR k + 14) (stm_rv_size M Q V Q0 V0 mF mG mC) (@prpv0 _ N r v r0 v0 F G C mu)
    (stm_rv M (real64 r) (real64 v) (real64 r0) (real64 v0) Fv Gval Cv).
  Proof using All.
    intro HG. pose proof Q_pos as P. pose proof Q0_pos as P0. pose proof M_pos as PM.
    pose proof (An_div1 L _ _ _ _ _ _ _ _ _ nQ0 Rm ltac:(lra) ltac:(lia) ltac:(lia)) as D1.
    pose proof (An_mul L _ _ _ _ _ _ _ _ _ _ D1 oneF ltac:(lia) ltac:(lia)) as D2.
    pose proof (Em_outer L _ _ _ _ _ _ _ _ _ _ dR Rv0 ltac:(lia) ltac:(lia)) as O1.
    pose proof (Em_outer L _ _ _ _ _ _ _ _ _ _ dV Rr0 ltac:(lia) ltac:(lia)) as O2.
    pose proof (Em_sub L _ _ _ _ _ _ _ _ _ _ O1 O2 ltac:(lia) ltac:(lia)) as O12.
    pose proof (Em_scale L _ _ _ _ _ _ _ _ _ _ D2 O12 ltac:(lia) ltac:(lia)) as T1.
    pose proof (An_div1 L _ _ _ _ _ _ _ _ _ HC Rm ltac:(lra) ltac:(lia) ltac:(lia)) as D3.
    pose proof (Em_outer L _ _ _ _ _ _ _ _ _ _ Rv Rv0 ltac:(lia) ltac:(lia)) as O3.
    pose proof (Em_scale L _ _ _ _ _ _ _ _ _ _ D3 O3 ltac:(lia) ltac:(lia)) as T2.
    pose proof (Em_scale L _ _ _ _ _ _ _ _ _ _ HG (Em_eye L) ltac:(lia) ltac:(lia)) as T3.
    pose proof (Em_add L _ _ _ _ _ _ _ _ _ _ T1 T2 ltac:(lia) ltac:(lia)) as S1.
    pose proof (Em_add L _ _ _ _ _ _ _ _ _ _ S1 T3 ltac:(lia) ltac:(lia)) as S2.
    refine (Em_final L (INR k + 14) _ _ _ _ _ _ _ S2 _ _ _ _); [lia | | |].
    - match goal with |- INR ?a + 1 <= _ => replace a with (k + 13)%nat by lia end. rewrite INRk. simpl INR. lra.
    - right. rewrite !aM, !aQ0. unfold stm_rv_size. field. lra.
    - apply prpv0_real; [exact Pm].
  Qed.

  Hypothesis IG : in_range 180 (M / (Q * Q)).
  Lemma vr_ok (Ft : b64) (Ftv mFt : R) : Er64 450 k mFt Ft Ftv ->
    off64m (INR k + 33) (stm_vr_size M Q V Q0 V0 mFt mC) (@pvpr0 _ N r v r0 v0 Ft C mu)
    (stm_vr M (real64 r) (real64 v) (real64 r0) (real64 v0) Ftv Cv).
  Proof using All.
    intro HG. pose proof Q_pos as P. pose proof Q0_pos as P0. pose proof M_pos as PM.
    pose proof (Ev_divs L _ _ _ _ _ _ _ _ _ Rr0 sQ0 ltac:(nra) ltac:(lia) ltac:(lia)) as W0.
    pose proof (Ev_divs L _ _ _ _ _ _ _ _ _ Rr sQ ltac:(nra) ltac:(lia) ltac:(lia)) as W.
    pose proof (Em_neg L _ _ _ _ _ (Em_outer L _ _ _ _ _ _ _ _ _ _ dV W0 ltac:(lia) ltac:(lia))) as T1.
    pose proof (Em_outer L _ _ _ _ _ _ _ _ _ _ W dV ltac:(lia) ltac:(lia)) as T2.
    pose proof (Em_sub L _ _ _ _ _ _ _ _ _ _ T1 T2 ltac:(lia) ltac:(lia)) as S1.
    pose proof (Em_outer L _ _ _ _ _ _ _ _ _ _ ur ur ltac:(lia) ltac:(lia)) as O1.
    pose proof (Em_sub L _ _ _ _ _ _ _ _ _ _ (Em_eye L) O1 ltac:(lia) ltac:(lia)) as I1.
    pose proof (Em_outer L _ _ _ _ _ _ _ _ _ _ Rr Rv ltac:(lia) ltac:(lia)) as X1.
    pose proof (Em_outer L _ _ _ _ _ _ _ _ _ _ Rv Rr ltac:(lia) ltac:(lia)) as X2.
    pose proof (Em_sub L _ _ _ _ _ _ _ _ _ _ X1 X2 ltac:(lia) ltac:(lia)) as X.
    pose proof (Em_divs L _ _ _ _ _ _ _ _ _ X Rm ltac:(lra) ltac:(lia) ltac:(lia)) as Y.
    pose proof (Em_outer L _ _ _ _ _ _ _ _ _ _ ur dV ltac:(lia) ltac:(lia)) as O2.
    pose proof (Em_mul L _ _ _ _ _ _ _ _ _ _ Y O2 ltac:(lia) ltac:(lia)) as Z1.
    pose proof (Em_add L _ _ _ _ _ _ _ _ _ _ I1 Z1 ltac:(lia) ltac:(lia)) as I2.
    pose proof (Em_scale L _ _ _ _ _ _ _ _ _ _ HG I2 ltac:(lia) ltac:(lia)) as T3.
    pose proof (Em_add L _ _ _ _ _ _ _ _ _ _ S1 T3 ltac:(lia) ltac:(lia)) as S2.
    pose proof (An_div1 L _ _ _ _ _ _ _ _ _ Rm sQ ltac:(nra) ltac:(lia) ltac:(lia)) as D1'.
    assert (IG' : in_range 180 (Rabs M / Rabs (Q * Q))) by (rewrite aM, aQQ; exact IG).
    pose proof (An_weak L _ 180 _ 9 _ _ _ _ D1' (Rle_refl _) ltac:(lia) IG' ltac:(lia)) as D1. clear D1'.
    pose proof (An_mul L _ _ _ _ _ _ _ _ _ _ D1 HC ltac:(lia) ltac:(lia)) as D2.
    pose proof (An_div1 L _ _ _ _ _ _ _ _ _ D2 sQ0 ltac:(nra) ltac:(lia) ltac:(lia)) as D3.
    pose proof (Em_outer L _ _ _ _ _ _ _ _ _ _ ur ur0 ltac:(lia) ltac:(lia)) as O3.
    pose proof (Em_scale L _ _ _ _ _ _ _ _ _ _ D3 O3 ltac:(lia) ltac:(lia)) as T4.
    pose proof (Em_sub L _ _ _ _ _ _ _ _ _ _ S2 T4 ltac:(lia) ltac:(lia)) as S3.
    refine (Em_final L (INR k + 33) _ _ _ _ _ _ _ S3 _ _ _ _); [lia | | |].
    - match goal with |- INR ?a + 1 <= _ => replace a with (k + 32)%nat by lia end. rewrite INRk. simpl INR. lra.
    - right. rewrite !aM, !aQQ, !aQQ0. unfold stm_vr_size. field. repeat split; lra.
    - apply pvpr0_real; [exact Nr | exact Nr0 | exact Pm].
  Qed.
End Stm.

Lemma good_v (e e' : Z) (a : V3 b64) : (0 <= e <= e')%Z -> good64v e a -> good64v e' a.
Proof. intros H [F I]. split; [exact F | exact (range_mono e e' _ H I)]. Qed.
Lemma good_s (e e' : Z) (a : b64) : (0 <= e <= e')%Z -> good64 e a -> good64 e' a.
Proof. intros H [F I]. split; [exact F | exact (range_mono e e' _ H I)]. Qed.

Lemma blocks_ok (L : libm64) (r v r0 v0 : V3 b64) (F G Ft Gt C mu : b64) : good64v 60 r -> good64v 60 v -> good64v 60 r0 -> good64v 60 v0 ->
  good64 60 mu -> 0 < B2R mu -> real64 r <> vzero -> real64 r0 <> vzero ->
  good64 450 F -> good64 450 G -> good64 450 Ft -> good64 450 Gt -> good64 650 C -> 
  let N := Num_B64 L in let M := B2R mu in let q := vnorm (real64 r) in let q0 := vnorm (real64 r0) in let s := vnorm (real64 v) in let s0 := vnorm (real64 v0) in
  off64m 19 (stm_rr_size M q s q0 s0 (Rabs (B2R F)) (Rabs (B2R C))) (@prpr0 _ N r v r0 v0 F C mu) (stm_rr M (real64 r) (real64 v) (real64 r0) (real64 v0) (B2R F) (B2R C)) /\
  off64m 14 (stm_rv_size M q s q0 s0 (Rabs (B2R F)) (Rabs (B2R G)) (Rabs (B2R C))) (@prpv0 _ N r v r0 v0 F G C mu)
    (stm_rv M (real64 r) (real64 v) (real64 r0) (real64 v0) (B2R F) (B2R G) (B2R C)) /\
  off64m 33 (stm_vr_size M q s q0 s0 (Rabs (B2R Ft)) (Rabs (B2R C))) (@pvpr0 _ N r v r0 v0 Ft C mu) (stm_vr M (real64 r) (real64 v) (real64 r0) (real64 v0) (B2R Ft) (B2R C)) /\
  off64m 26 (stm_vv_size M q s q0 s0 (Rabs (B2R F)) (Rabs (B2R Gt)) (Rabs (B2R C))) (@pvpv0 _ N r v r0 v0 F Gt C mu)
    (stm_vv M (real64 r) (real64 v) (real64 r0) (real64 v0) (B2R F) (B2R Gt) (B2R C)).
Proof.
  intros Gr Gv Gr0 Gv0 Gm Pm Nr Nr0 GF GG GFt GGt GC . cbv zeta.
  pose proof (An_good L 450 F ltac:(lia) GF) as EF. pose proof (An_good L 450 G ltac:(lia) GG) as EG. pose proof (An_good L 450 Ft ltac:(lia) GFt) as EFt.
  pose proof (An_good L 450 Gt ltac:(lia) GGt) as EGt. pose proof (An_good L 650 C ltac:(lia) GC) as EC.
  assert (I0 : forall n, INR 0 + n = n) by (intro n; simpl; lra).
  pose proof (rr_ok L r v r0 v0 mu 0 ltac:(lia) Gr Gv Gr0 Gv0 Gm Pm Nr Nr0 F C _ _ _ _ EF EC) as A. rewrite I0 in A.
  pose proof (rv_ok L r v r0 v0 mu 0 ltac:(lia) Gr Gv Gr0 Gv0 Gm Pm Nr Nr0 F C _ _ _ _ EF EC G _ _ EG) as B. rewrite I0 in B.
  pose proof (vv_ok L r v r0 v0 mu 0 ltac:(lia) Gr Gv Gr0 Gv0 Gm Pm Nr Nr0 F C _ _ _ _ EF EC Gt _ _ EGt) as E. rewrite I0 in E.
  assert (IM : in_range 180 (B2R mu / (vnorm (real64 r) * vnorm (real64 r)))) by (apply (range_div 60 120); [lia | lia | apply Gm | apply (range_mul 60 60); [lia | lia | apply Gr | apply Gr]]).
  pose proof (vr_ok L r v r0 v0 mu 0 ltac:(lia) Gr Gv Gr0 Gv0 Gm Pm Nr Nr0 F C _ _ _ _ EF EC IM Ft _ _ EFt) as D. rewrite I0 in D.
  split; [exact A |]. split; [exact B |]. split; [exact D | exact E].
Qed.

(** the scalar coefficients from given universal functions *)
Lemma coef_ok (L : libm64) (chi U1 U2 U4 U5 alpha s s0 r0 dt mu : b64) : good64 60 chi -> good64 500 U1 -> good64 500 U2 -> good64 500 U4 -> good64 500 U5 ->
  good64 60 alpha -> good64 60 s -> good64 60 s0 -> good64 60 r0 -> good64 60 dt -> good64 60 mu -> 0 < B2R mu ->
  let N := Num_B64 L in let M := sqrt (B2R mu) in let f := @B2R 53 1024 in
  off64 10 ((3 * Rabs (f U5) + Rabs (f chi) * Rabs (f U4) + M * Rabs (f dt) * Rabs (f U2)) / M) (@C_func _ N chi U2 U4 U5 dt mu)
    ((3 * f U5 - f chi * f U4 - M * f dt * f U2) / M) /\
  off64 7 ((Rabs (f r0) * Rabs (f U1) + Rabs (f s0) * Rabs (f U2)) / M) (@lagrange_G _ N U1 U2 s0 r0 mu) ((f r0 * f U1 + f s0 * f U2) / M) /\
  off64 7 (Rabs (f alpha) * M * Rabs (f dt) + Rabs (f s) + Rabs (f s0)) (@generalized_anomaly _ N alpha s s0 dt mu) (f alpha * M * f dt + f s - f s0).
Proof.
  intros Gx G1 G2 G4 G5 Ga Gs Gs0 Gr Gd Gm Pm. cbv zeta.
  assert (PS : 0 < sqrt (B2R mu)) by (apply sqrt_lt_R0; exact Pm).
  assert (Em : Er64 30 2 (sqrt (B2R mu)) (@n_sqrt _ (Num_B64 L) mu) (sqrt (B2R mu))).
  { pose proof (An_good L (30 + 30) mu ltac:(lia) Gm) as E. rewrite Rabs_pos_eq in E by lra. exact (An_sqrt L 30 0 _ _ E Pm ltac:(lia) ltac:(lia)). }
  assert (Em' : Er64 30 2 (Rabs (sqrt (B2R mu))) (@n_sqrt _ (Num_B64 L) mu) (sqrt (B2R mu))) by (rewrite Rabs_pos_eq by lra; exact Em).
  pose proof (An_good L 60 chi ltac:(lia) Gx) as Ex. pose proof (An_good L 500 U1 ltac:(lia) G1) as E1. pose proof (An_good L 500 U2 ltac:(lia) G2) as E2.
  pose proof (An_good L 500 U4 ltac:(lia) G4) as E4. pose proof (An_good L 500 U5 ltac:(lia) G5) as E5. pose proof (An_good L 60 alpha ltac:(lia) Ga) as Ea.
  pose proof (An_good L 60 s ltac:(lia) Gs) as Es. pose proof (An_good L 60 s0 ltac:(lia) Gs0) as Es0. pose proof (An_good L 60 r0 ltac:(lia) Gr) as Er.
  pose proof (An_good L 60 dt ltac:(lia) Gd) as Ed.
  pose proof (An_Z L 2 3 ltac:(lia) ltac:(lia) ltac:(lia)) as T3. rewrite (Rabs_pos_eq 3) in T3 by lra.
  pose proof (An_mul L _ _ _ _ _ _ _ _ _ _ T3 E5 ltac:(lia) ltac:(lia)) as A1.
  pose proof (An_mul L _ _ _ _ _ _ _ _ _ _ Ex E4 ltac:(lia) ltac:(lia)) as A2.
  pose proof (An_mul L _ _ _ _ _ _ _ _ _ _ Em Ed ltac:(lia) ltac:(lia)) as A3.
  pose proof (An_mul L _ _ _ _ _ _ _ _ _ _ A3 E2 ltac:(lia) ltac:(lia)) as A4.
  pose proof (An_sub L _ _ _ _ _ _ _ _ _ _ A1 A2 ltac:(lia) ltac:(lia)) as A5.
  pose proof (An_sub L _ _ _ _ _ _ _ _ _ _ A5 A4 ltac:(lia) ltac:(lia)) as A6.
  pose proof (An_div1 L _ _ _ _ _ _ _ _ _ A6 Em' ltac:(lra) ltac:(lia) ltac:(lia)) as A7.
  pose proof (An_mul L _ _ _ _ _ _ _ _ _ _ Er E1 ltac:(lia) ltac:(lia)) as B1.
  pose proof (An_mul L _ _ _ _ _ _ _ _ _ _ Es0 E2 ltac:(lia) ltac:(lia)) as B2.
  pose proof (An_add L _ _ _ _ _ _ _ _ _ _ B1 B2 ltac:(lia) ltac:(lia)) as B3.
  pose proof (An_div1 L _ _ _ _ _ _ _ _ _ B3 Em' ltac:(lra) ltac:(lia) ltac:(lia)) as B4.
  pose proof (An_mul L _ _ _ _ _ _ _ _ _ _ Ea Em ltac:(lia) ltac:(lia)) as C1.
  pose proof (An_mul L _ _ _ _ _ _ _ _ _ _ C1 Ed ltac:(lia) ltac:(lia)) as C2.
  pose proof (An_add L _ _ _ _ _ _ _ _ _ _ C2 Es ltac:(lia) ltac:(lia)) as C3.
  pose proof (An_sub L _ _ _ _ _ _ _ _ _ _ C3 Es0 ltac:(lia) ltac:(lia)) as C4.
  rewrite (Rabs_pos_eq (sqrt (B2R mu))) in A7, B4 by lra.
  split; [refine (An_final L _ _ _ _ _ _ _ _ A7 _ _ _ _) | split; [refine (An_final L _ _ _ _ _ _ _ _ B4 _ _ _ _) | refine (An_final L _ _ _ _ _ _ _ _ C4 _ _ _ _)]];
    try lia; try (simpl; lra); try reflexivity; try apply Rle_refl.
Qed.
