(** * B32An: the error analysis of [RoundAn] in single precision. *)
From Coq Require Import ZArith Reals Lra Lia Psatz Bool List.
From Flocq Require Import Core IEEE754.BinarySingleNaN.
From Verif Require Import Num NumB32 Spec SpecFl SpecFl32 SpecFlV RelLib RoundAn B32Lib B32Acc B32Rel.
Local Open Scope R_scope.

Definition fin32 (x : b32) : Prop := is_finite x = true.
Definition u32 : R := 1001 / 1000 * eps.

Section An.
  Variable L : libm.
  Let N : Num b32 := Num_B32 L.

  Definition Er32 : Z -> nat -> R -> b32 -> R -> Prop := Er b32 B2R fin32 u32.

  Lemma u32_ok : 0 < eps /\ eps < u32 <= / 100000.
  Proof using. unfold u32, eps. lra. Qed.
  Lemma eta_ok : 0 <= / IZR (2 ^ 149) <= (u32 - eps) * / IZR (2 ^ 109).
  Proof using. unfold u32, eps. simpl. lra. Qed.
  Lemma rd_0' : rnd 0 = 0. Proof using. apply rnd_id, F32_0. Qed.
  Lemma rd_pos' (z : R) : 0 <= z -> 0 <= rnd z.
  Proof using. intro H. rewrite <- rd_0'. apply round_le; [apply FLT_exp_valid; reflexivity | apply valid_rnd_N | exact H]. Qed.
  Lemma ov_ok (z : R) : Rabs z <= 2 * IZR (2 ^ 109) -> Rabs z <= IZR (2 ^ 127).
  Proof using. intro H. apply Rle_trans with (1 := H). rewrite <- mult_IZR. apply IZR_le. lia. Qed.
  Lemma f_add' (x y : b32) : fin32 x -> fin32 y -> Rabs (B2R x + B2R y) <= 2 * IZR (2 ^ 109) ->
    B2R (@n_add _ N x y) = rnd (B2R x + B2R y) /\ fin32 (@n_add _ N x y).
  Proof using. intros X Y O. apply add_exact; auto using ov_ok. Qed.
  Lemma f_sub' (x y : b32) : fin32 x -> fin32 y -> Rabs (B2R x - B2R y) <= 2 * IZR (2 ^ 109) ->
    B2R (@n_sub _ N x y) = rnd (B2R x - B2R y) /\ fin32 (@n_sub _ N x y).
  Proof using. intros X Y O. apply sub_exact; auto using ov_ok. Qed.
  Lemma f_mul' (x y : b32) : fin32 x -> fin32 y -> Rabs (B2R x * B2R y) <= 2 * IZR (2 ^ 109) ->
    B2R (@n_mul _ N x y) = rnd (B2R x * B2R y) /\ fin32 (@n_mul _ N x y).
  Proof using. intros X Y O. apply mul_exact; auto using ov_ok. Qed.
  Lemma f_div' (x y : b32) : fin32 x -> B2R y <> 0 -> Rabs (B2R x / B2R y) <= 2 * IZR (2 ^ 109) ->
    B2R (@n_div _ N x y) = rnd (B2R x / B2R y) /\ fin32 (@n_div _ N x y).
  Proof using. intros X Y O. apply div_exact; auto using ov_ok. Qed.
  Lemma f_sqrt' (x : b32) : fin32 x -> 0 <= B2R x -> B2R (@n_sqrt _ N x) = rnd (sqrt (B2R x)) /\ fin32 (@n_sqrt _ N x).
  Proof using.
    intros X [H | H]; [apply sqrt_value; assumption |].
    destruct x as [s | s | | s m e B]; try discriminate X.
    - destruct s; simpl; rewrite sqrt_0, rd_0'; split; reflexivity.
    - exfalso. apply (F2R_neq_0 radix2 (Float radix2 (cond_Zopp s (Z.pos m)) e)); [destruct s; discriminate | symmetry; exact H].
  Qed.
  Lemma f_neg' (x : b32) : fin32 x -> B2R (@n_neg _ N x) = - B2R x /\ fin32 (@n_neg _ N x).
  Proof using. intro X. split; [apply opp_value | unfold fin32; simpl; rewrite is_finite_Bopp; exact X]. Qed.
  Lemma f_abs' (x : b32) : fin32 x -> B2R (@n_abs _ N x) = Rabs (B2R x) /\ fin32 (@n_abs _ N x).
  Proof using. intro X. split; [apply B2R_Babs | unfold fin32; simpl; rewrite is_finite_Babs; exact X]. Qed.

  Notation inst L := (L b32 N B2R fin32 rnd eps u32 (/ IZR (2 ^ 149)) 109%Z u32_ok ltac:(lia) eta_ok rd_0' rd_pos' rnd_abs
    f_add' f_sub' f_mul' f_div' f_sqrt' f_neg' f_abs') (only parsing).
  Definition An_add := inst Er_add.
  Definition An_sub := inst Er_sub.
  Definition An_mul := inst Er_mul.
  Definition An_neg := inst Er_neg.
  Definition An_abs := inst Er_abs.
  Definition An_div := inst Er_div.
  Definition An_div1 := inst Er_div1.
  Definition An_sqrt := inst Er_sqrt.
  Definition An_norm := inst Er_norm.
  Definition An_dot := inst Er_dot.
  Definition An_minor := inst Er_minor.
  Definition An_exact := inst Er_exact.
  Definition An_lib := inst Er_lib.
  Definition An_weak := inst Er_weak.
  Definition An_k := inst Er_k.
  Definition An_v := inst Er_v.
  Definition An_m := inst Er_m.

  Lemma An_Z (r z : Z) : (Z.abs z < 2 ^ 24)%Z -> (Z.abs z <= 2 ^ r)%Z -> (0 <= r)%Z ->
    Er32 r 0 (Rabs (IZR z)) (@n_Z _ N z) (IZR z).
  Proof using.
    intros Z1 Z2 Hr. destruct (Fl_int z ltac:(lia)) as [F [t [V T]]].
    assert (t = 1) by (simpl in T; rewrite Rinv_1 in T; lra). subst t. rewrite Rmult_1_r in V.
    exact (inst Er_const r (b32_Z z) z F V Z2 Hr).
  Qed.
  Lemma An_off (r : Z) (k : nat) (m : R) (x : b32) (v : R) : (k <= 90)%nat -> Er32 r k m x v -> off (INR k + 1) m x v.
  Proof using L N.
    intros K E. assert (Q : u32 <= 1001 / 1000 * eps) by (unfold u32; lra).
    exact (inst Er_off r k m x v K Q E).
  Qed.
  Lemma An_final (C : R) (r : Z) (k : nat) (m m' : R) (x : b32) (v v' : R) : Er32 r k m x v -> (k <= 90)%nat ->
    INR k + 1 <= C -> m <= m' -> v = v' -> off C m' x v'.
  Proof using L N.
    intros E K HC M <-. pose proof (An_m _ _ _ _ _ E) as M0. destruct (An_off r k m x v K E) as [F H]. split; [exact F |].
    apply Rle_trans with (1 := H). pose proof (pos_INR k).
    assert (0 < / IZR (2 ^ 24)) by (simpl; lra).
    apply Rmult_le_compat; [apply Rmult_le_pos; lra | exact M0 | apply Rmult_le_compat_r; lra | exact M].
  Qed.
  Lemma An_good (r : Z) (x : b32) : (0 <= r)%Z -> good32 r x -> Er32 r 0 (Rabs (B2R x)) x (B2R x).
  Proof using L N. intros Hr [F I]. apply An_exact; assumption. Qed.

  (** ** Vectors: all components measured by one [m] *)
  Definition Ev32 (r : Z) (k : nat) (m : R) (g : V3 b32) (a : vec) : Prop :=
    Er32 r k m (c0 g) (c0 a) /\ Er32 r k m (c1 g) (c1 a) /\ Er32 r k m (c2 g) (c2 a).

  Lemma Ev_good (r : Z) (a : V3 b32) : (0 <= r)%Z -> good32v r a -> Ev32 r 0 (vnorm (real32 a)) a (real32 a).
  Proof using L N.
    intros Hr [[X [Y Z]] I].
    assert (Q : forall x : b32, is_finite x = true -> Rabs (B2R x) <= vnorm (real32 a) -> Er32 r 0 (vnorm (real32 a)) x (B2R x)).
    { intros x Fx B. split; [exact Fx |]. split; [| split; [exact B | split; assumption]].
      unfold Rminus. rewrite Rplus_opp_r, Rabs_R0. unfold gam. simpl. lra. }
    destruct (comp_le (real32 a)) as [C0 [C1 C2]]. split; [| split]; apply Q; assumption.
  Qed.
  (** the inner product and the cross product of exact vectors, the norm of one *)
  Lemma Ev_inner0 (a b : Z) (A B : V3 b32) : (0 <= a)%Z -> (0 <= b)%Z -> (a + b <= 106)%Z -> good32v a A -> good32v b B ->
    Er32 (a + b) 3 (vnorm (real32 A) * vnorm (real32 B)) (@vinner _ N A B) (dot (real32 A) (real32 B)).
  Proof using L N.
    intros Ha Hb H [[X [Y Z]] I] [[X' [Y' Z']] I'].
    apply (An_dot (a + b)%Z); try assumption; [exact (cauchy_abs (real32 A) (real32 B)) | apply range_mul; assumption | lia].
  Qed.
  Lemma Ev_cross0 (a b : Z) (A B : V3 b32) : (0 <= a)%Z -> (0 <= b)%Z -> (a + b <= 106)%Z -> good32v a A -> good32v b B ->
    Ev32 (a + b) 2 (vnorm (real32 A) * vnorm (real32 B)) (@vcross _ N A B) (cross (real32 A) (real32 B)).
  Proof using L N.
    intros Ha Hb H [[X [Y Z]] I] [[X' [Y' Z']] I'].
    assert (R2 : in_range (a + b) (vnorm (real32 A) * vnorm (real32 B))) by (apply range_mul; assumption).
    assert (Q : forall t : b32, 0 <= B2R t * B2R t) by (intro; apply Rle_0_sqr).
    pose proof (Q (c0 A)). pose proof (Q (c1 A)). pose proof (Q (c2 A)). pose proof (Q (c0 B)). pose proof (Q (c1 B)). pose proof (Q (c2 B)).
    split; [| split]; simpl; (apply An_minor; try assumption; [apply minor_le; unfold dot; simpl; lra | lia]).
  Qed.
  Lemma Ev_norm0 (r : Z) (a : V3 b32) : good32v r a -> real32 a <> vzero -> (0 <= r)%Z -> (r + r <= 106)%Z ->
    Er32 r 3 (vnorm (real32 a)) (@vector_norm _ N a) (vnorm (real32 a)).
  Proof using L N.
    intros G Nz Hr H. pose proof (Ev_inner0 r r a a Hr Hr H G G) as D. pose proof (dot_pos_nz _ Nz) as P.
    apply (An_sqrt r 3); [| exact P | lia | lia].
    apply (An_v _ _ _ _ _ _ _ D); [| reflexivity]. unfold vnorm. apply sqrt_sqrt. lra.
  Qed.

  Lemma Ev_weak (r r' : Z) (k k' : nat) (m m' : R) (g : V3 b32) (a : vec) : Ev32 r k m g a -> m <= m' -> (k <= k')%nat ->
    in_range r' m' -> (0 <= r')%Z -> Ev32 r' k' m' g a.
  Proof using L N. intros [X [Y Z]] H1 H2 H3 H4. split; [| split]; (eapply An_weak; eassumption). Qed.

  Lemma Ev_m (r : Z) (k : nat) (m : R) (g : V3 b32) (a : vec) : Ev32 r k m g a -> 0 <= m.
  Proof using L N. intros [X _]. exact (An_m _ _ _ _ _ X). Qed.
  Lemma Er_r (r : Z) (k : nat) (m : R) (g : b32) (a : R) : Er32 r k m g a -> (0 <= r)%Z.
  Proof using L N. intros [_ [_ [_ [_ H]]]]. exact H. Qed.
  Lemma Ev_r (r : Z) (k : nat) (m : R) (g : V3 b32) (a : vec) : Ev32 r k m g a -> (0 <= r)%Z.
  Proof using L N. intros [X _]. exact (Er_r _ _ _ _ _ X). Qed.

  Lemma minor (a b : Z) (j k : nat) (m n : R) (x y z t : b32) (p q v w : R) :
    Er32 a j m x p -> Er32 b k n y q -> Er32 a j m z v -> Er32 b k n t w -> (a + b + 1 <= 109)%Z -> (j + k <= 100)%nat ->
    Er32 (a + b + 1) (j + k + 2) (2 * (m * n)) (@n_sub _ N (@n_mul _ N x y) (@n_mul _ N z t)) (p * q - v * w).
  Proof using L N.
    intros X Y Z T H K.
    pose proof (An_mul _ _ _ _ _ _ _ _ _ _ X Y ltac:(lia) ltac:(lia)) as A.
    pose proof (An_mul _ _ _ _ _ _ _ _ _ _ Z T ltac:(lia) ltac:(lia)) as B.
    pose proof (An_sub _ _ _ _ _ _ _ _ _ _ A B ltac:(lia) ltac:(lia)) as C.
    replace (Z.max (a + b) (a + b) + 1)%Z with (a + b + 1)%Z in C by lia.
    replace (S (Nat.max (S (j + k)) (S (j + k)))) with (j + k + 2)%nat in C by lia.
    apply (An_v _ _ _ _ _ _ _ C); [ring | reflexivity].
  Qed.

  Lemma Ev_cross (a b : Z) (j k : nat) (m n : R) (A B : V3 b32) (p q : vec) : Ev32 a j m A p -> Ev32 b k n B q ->
    (a + b + 1 <= 109)%Z -> (j + k <= 100)%nat ->
    Ev32 (a + b + 1) (j + k + 2) (2 * (m * n)) (@vcross _ N A B) (cross p q).
  Proof using L N.
    intros [X [Y Z]] [X' [Y' Z']] H K. split; [| split]; simpl; apply minor; assumption.
  Qed.

  Lemma Ev_inner (a b : Z) (j k : nat) (m n : R) (A B : V3 b32) (p q : vec) : Ev32 a j m A p -> Ev32 b k n B q ->
    (a + b + 2 <= 109)%Z -> (j + k <= 100)%nat ->
    Er32 (a + b + 2) (j + k + 3) (3 * (m * n)) (@vinner _ N A B) (dot p q).
  Proof using L N.
    intros [X [Y Z]] [X' [Y' Z']] H K.
    pose proof (An_mul _ _ _ _ _ _ _ _ _ _ X X' ltac:(lia) ltac:(lia)) as A1.
    pose proof (An_mul _ _ _ _ _ _ _ _ _ _ Y Y' ltac:(lia) ltac:(lia)) as A2.
    pose proof (An_mul _ _ _ _ _ _ _ _ _ _ Z Z' ltac:(lia) ltac:(lia)) as A3.
    pose proof (An_add _ _ _ _ _ _ _ _ _ _ A1 A2 ltac:(lia) ltac:(lia)) as C.
    pose proof (An_add _ _ _ _ _ _ _ _ _ _ C A3 ltac:(lia) ltac:(lia)) as D.
    replace (Z.max (Z.max (a + b) (a + b) + 1) (a + b) + 1)%Z with (a + b + 2)%Z in D by lia.
    replace (S (Nat.max (S (Nat.max (S (j + k)) (S (j + k)))) (S (j + k)))) with (j + k + 3)%nat in D by lia.
    apply (An_v _ _ _ _ _ _ _ D); [ring | reflexivity].
  Qed.

  Lemma Ev_sub (a b : Z) (j k : nat) (m n : R) (A B : V3 b32) (p q : vec) : Ev32 a j m A p -> Ev32 b k n B q ->
    (Z.max a b + 1 <= 109)%Z -> (Nat.max j k <= 100)%nat ->
    Ev32 (Z.max a b + 1) (S (Nat.max j k)) (m + n) (@vsub _ N A B) (vminus p q).
  Proof using L N.
    intros [X [Y Z]] [X' [Y' Z']] H K. split; [| split]; simpl; apply An_sub; try assumption; lia.
  Qed.
  Lemma Ev_add (a b : Z) (j k : nat) (m n : R) (A B : V3 b32) (p q : vec) : Ev32 a j m A p -> Ev32 b k n B q ->
    (Z.max a b + 1 <= 109)%Z -> (Nat.max j k <= 100)%nat ->
    Ev32 (Z.max a b + 1) (S (Nat.max j k)) (m + n) (@vadd _ N A B) (vplus p q).
  Proof using L N.
    intros [X [Y Z]] [X' [Y' Z']] H K. split; [| split]; simpl; apply An_add; try assumption; lia.
  Qed.
  Lemma Ev_scale (a b : Z) (j k : nat) (m n : R) (s : b32) (B : V3 b32) (t : R) (q : vec) : Er32 a j m s t -> Ev32 b k n B q ->
    (a + b <= 109)%Z -> (j + k <= 100)%nat -> Ev32 (a + b) (S (j + k)) (m * n) (@vscale _ N s B) (smul t q).
  Proof using L N.
    intros X [X' [Y' Z']] H K. split; [| split]; simpl; apply An_mul; try assumption; lia.
  Qed.
  Lemma Ev_divs (a b : Z) (j k : nat) (m : R) (s : b32) (B : V3 b32) (t : R) (q : vec) : Ev32 a j m B q -> Er32 b k (Rabs t) s t ->
    t <> 0 -> (a + b <= 109)%Z -> (j + k <= 80)%nat ->
    Ev32 (a + b) (S (S (j + k))) (m / Rabs t) (@vdivs _ N B s) (mk3 (c0 q / t) (c1 q / t) (c2 q / t)).
  Proof using L N.
    intros [X' [Y' Z']] X T H K. split; [| split]; simpl; apply An_div1; assumption.
  Qed.
  Lemma Ev_norm (r : Z) (k : nat) (m : R) (g : V3 b32) (a : vec) : Ev32 r k m g a -> (k <= 100)%nat -> (r <= 48)%Z ->
    Er32 (r + 1) (k + 6) (2 * m) (@vector_norm _ N g) (vnorm a).
  Proof using L N.
    intros V K H. pose proof (Ev_m _ _ _ _ _ V) as M. pose proof (Ev_r _ _ _ _ _ V) as Hr. destruct V as [X [Y Z]].
    assert (Q : sqrt (m * m + m * m + m * m) = sqrt 3 * m).
    { replace (m * m + m * m + m * m) with (3 * (m * m)) by ring. rewrite sqrt_mult by nra. rewrite sqrt_square by exact M. reflexivity. }
    assert (S3 : 1 <= sqrt 3 <= 2).
    { split; [rewrite <- sqrt_1; apply sqrt_le_1_alt; lra |]. rewrite <- (sqrt_square 2) by lra. apply sqrt_le_1_alt. lra. }
    assert (Im : in_range r m) by apply X.
    assert (S3r : in_range 1 (sqrt 3)) by (apply range_between; [simpl; lra | lia]).
    assert (I3 : in_range (r + 1) (sqrt 3 * m)).
    { rewrite Z.add_comm. apply range_mul; try lia; assumption. }
    eapply (An_weak (r + 1)%Z).
    - apply (An_norm r r r (r + 1)%Z k m m m); try assumption; try lia.
      + rewrite Q. exact I3.
      + assert (T : IZR (2 ^ (r + 1)) <= IZR (2 ^ 49)) by (apply IZR_le, Z.pow_le_mono_r; lia).
        assert (T' : / IZR (2 ^ 49) <= / IZR (2 ^ (r + 1))).
        { apply Rinv_le_contravar; [pose proof (two_pow (r + 1) ltac:(lia)); lra | exact T]. }
        apply Rle_trans with ((u32 * / IZR (2 ^ 49)) ^ 2); [unfold u32, eps; simpl; lra |].
        apply pow_incr. assert (0 < / IZR (2 ^ 49)) by (apply Rinv_0_lt_compat, (IZR_lt 0); lia).
        assert (0 < u32) by (unfold u32, eps; lra). split; [apply Rmult_le_pos; lra | apply Rmult_le_compat_l; lra].
    - rewrite Q. apply Rmult_le_compat_r; lra.
    - lia.
    - rewrite Z.add_comm. apply range_mul; [lia | lia | apply range_between; [simpl; lra | lia] | exact Im].
    - lia.
  Qed.
  Lemma Ev_final (C : R) (r : Z) (k : nat) (m m' : R) (g : V3 b32) (a a' : vec) : Ev32 r k m g a -> (k <= 90)%nat ->
    INR k + 1 <= C -> m <= m' -> a = a' -> off32v C m' g a'.
  Proof using L N.
    intros [X [Y Z]] K HC M <-. split; [| split]; (eapply An_final; [eassumption | exact K | exact HC | exact M | reflexivity]).
  Qed.
End An.
