(** * AngRange: the angles of rv2coe against the true 2 pi. *)
From Coq Require Import ZArith Reals Bool Lia Lra.
From Flocq Require Import Core IEEE754.BinarySingleNaN.
From Verif Require Import Num NumB32 NumB64 SpecOrd SpecRange OrdFloat OrbIntegrals OrbElements B64Closed B32Closed.
Local Open Scope R_scope.

Lemma pi64_below : B2R b64_pi = 884279719003555 / 281474976710656 /\ 884279719003555 / 281474976710656 < PI.
Proof.
  split.
  - assert (H : B2SF b64_pi = SpecFloat.S754_finite false 7074237752028440 (-51)) by (vm_compute; reflexivity).
    destruct b64_pi as [ | | | s m e H']; try discriminate. simpl in H. injection H as -> -> ->. unfold B2R, F2R. simpl. lra.
  - pose proof (PI_2_3_7_ineq 9) as [A B]. unfold tg_alt, PI_2_3_7_tg, Ratan_seq in A, B. simpl in A, B. lra.
Qed.
Section Wrap.
  Context (prec emax : Z) (Hp : FLX.Prec_gt_0 prec) (Hm : Prec_lt_emax prec emax).
  Notation bf := (binary_float prec emax).
  Lemma leq_fin_R (x y : bf) : is_finite x = true -> is_finite y = true -> leq x y -> B2R x <= B2R y.
  Proof using. intros F G L. apply up_fin_leq in L; assumption. Qed.
  (** [T] is 2 pi, [P] is pi; an angle in [-P, P] is turned by [T] if negative *)
  Lemma wrap_leq (T P a z : bf) : is_finite T = true -> is_finite P = true -> is_finite z = true -> B2R z = 0 -> B2R P <= B2R T -> 0 <= B2R P -> leq (Bopp P) a -> leq a P ->
    let g := if Bltb a z then Bplus mode_NE T a else a in is_finite g = true /\ 0 <= B2R g <= B2R T.
  Proof using Hp Hm.
    intros FT FP Fz Z PT P0 L1 L2 g.
    assert (FoP : is_finite (Bopp P) = true) by now rewrite is_finite_Bopp.
    assert (Fa : is_finite a = true) by (eapply fin_between; [exact FoP|exact FP|exact L1|exact L2]).
    apply leq_fin_R in L1, L2; try assumption. rewrite B2R_Bopp in L1. unfold g. rewrite (Bltb_correct _ _ a z Fa Fz), Z. destruct (Rlt_bool_spec (B2R a) 0) as [N|N].
    - assert (A : leq (Bplus mode_NE T a) T).
      { destruct (add_val _ _ Hp Hm T a FT Fa) as [Nn V]. apply leq_val. repeat split; [exact Nn|now apply fin_num|]. rewrite V, (fin_val _ _ T FT). apply Rle_trans with (clamp emax (round radix2 (SpecFloat.fexp prec emax) ZnearestE (B2R T))).
        - apply clamp_le, rnd_le; try assumption. lra.
        - rewrite (rnd_B2R _ _ Hp Hm T), clamp_id; [lra|apply fin_lt]. }
      assert (B : leq zero (Bplus mode_NE T a)) by (apply add_ge; try assumption; try reflexivity; cbn; lra).
      assert (F : is_finite (Bplus mode_NE T a) = true) by (eapply fin_between; [| |exact B|exact A]; [reflexivity|exact FT]).
      split; [exact F|]. apply leq_fin_R in A, B; try assumption; try reflexivity. cbn in B. lra.
    - split; [exact Fa|]. lra.
  Qed.
  (** numbers below a number are below its predecessor *)
  Lemma above_succ (a c : bf) : is_finite a = true -> is_finite c = true -> is_finite (Bsucc c) = true -> B2R c < B2R a -> leq (Bsucc c) a.
  Proof using Hp Hm.
    intros Fa Fc Fs L. apply up_fin_leq; try assumption. pose proof (Bsucc_correct _ _ Hp Hm c Fc) as C. destruct (Rlt_bool _ _) eqn:E.
    - destruct C as [C _]. rewrite C. apply succ_le_lt; try (apply fexp_correct; exact Hp); try apply generic_format_B2R; exact L.
    - exfalso. cbn in C. destruct (Bsucc c); try discriminate.
  Qed.
End Wrap.

(** ** double precision *)
Definition in_pi64 (a : b64) : Prop := leq (Bopp b64_pi) a /\ leq a b64_pi.
Lemma wrap64 (a : b64) : in_pi64 a -> let g := if Bltb a (b64_Z 0) then Bplus mode_NE (b64_mul (b64_Z 2) b64_pi) a else a in is_finite g = true /\ 0 <= B2R g < 2 * PI.
Proof.
  intros [A B]. destruct pi64_below as [V L]. set (T := b64_mul (b64_Z 2) b64_pi).
  assert (W : B2R T = 2 * (884279719003555 / 281474976710656)).
  { assert (H : B2SF T = SpecFloat.S754_finite false 7074237752028440 (-50)) by (vm_compute; reflexivity).
    destruct T as [ | | | s m e H']; try discriminate. simpl in H. injection H as -> -> ->. unfold B2R, F2R. simpl. lra. }
  pose proof (wrap_leq 53 1024 _ _ T b64_pi a (b64_Z 0) ltac:(vm_compute; reflexivity) ltac:(vm_compute; reflexivity) ltac:(vm_compute; reflexivity) ltac:(vm_compute; reflexivity)
    ltac:(rewrite V, W; lra) ltac:(rewrite V; lra) A B) as K. cbv zeta in *. destruct K as [F K]. split; [exact F|]. rewrite W in K. lra.
Qed.
(** ** single precision *)
Definition in_pi32 (a : b32) : Prop := leq (Bopp b32_pi) a /\ leq a b32_pi.
Lemma val32 (x : b32) (m : BinNums.positive) (e : Z) : B2SF x = SpecFloat.S754_finite false m e -> is_finite x = true /\ B2R x = IZR (Zpos m) * bpow radix2 e.
Proof. destruct x as [ | | | s m' e' H']; try discriminate. simpl. intros H. injection H as -> -> ->. split; reflexivity. Qed.
Lemma at21 (z : R) : z * bpow radix2 (-21) = z / 2097152. Proof. cbn. lra. Qed.
Definition turn32 : b32 := b32_mul (b32_Z 2) b32_pi.
Definition edge32 : b32 := binary_normalize 24 128 _ _ mode_NE (-1) (-22) false.
Lemma turn32_above : is_finite turn32 = true /\ 2 * PI < B2R turn32 /\ B2R turn32 = 13176795 / 2097152.
Proof.
  destruct (val32 turn32 13176795 (-21) ltac:(vm_compute; reflexivity)) as [F V]. split; [exact F|]. rewrite V. cbn. pose proof B32Closed.PI_digits. split; lra.
Qed.
Lemma pi32_value : is_finite b32_pi = true /\ B2R b32_pi = 13176795 / 4194304.
Proof. destruct (val32 b32_pi 13176795 (-22) ltac:(vm_compute; reflexivity)) as [F V]. split; [exact F|]. rewrite V. cbn. lra. Qed.
Lemma edge32_R : is_finite edge32 = true /\ B2R edge32 = - / 4194304.
Proof.
  assert (H : B2SF edge32 = SpecFloat.S754_finite true 8388608 (-45)) by (vm_compute; reflexivity). destruct edge32 as [ | | | s m e H']; try discriminate. simpl in H. injection H as -> -> ->.
  split; [reflexivity|]. unfold B2R, F2R. simpl. lra.
Qed.
Lemma wrap32 (a : b32) : in_pi32 a -> let g := if Bltb a (b32_Z 0) then Bplus mode_NE turn32 a else a in
  is_finite g = true /\ 0 <= B2R g <= 13176795 / 2097152 /\ (2 * PI <= B2R g <-> - / 4194304 < B2R a < 0).
Proof.
  intros [A B]. destruct turn32_above as (FT & LT & VT). destruct pi32_value as [FP VP]. destruct edge32_R as [Fe Ve]. pose proof B32Closed.PI_digits as PD.
  pose proof (wrap_leq 24 128 _ _ turn32 b32_pi a (b32_Z 0) FT FP ltac:(vm_compute; reflexivity) ltac:(vm_compute; reflexivity) ltac:(rewrite VP, VT; lra) ltac:(rewrite VP; lra) A B) as K.
  cbv zeta in *. destruct K as [F K]. split; [exact F|]. rewrite VT in K. split; [exact K|]. clear K.
  assert (Fa : is_finite a = true). { eapply fin_between; [|exact FP|exact A|exact B]. now rewrite is_finite_Bopp. }
  apply leq_fin_R in A, B; try assumption; try (now rewrite is_finite_Bopp). rewrite B2R_Bopp in A. revert F. rewrite (Bltb_correct _ _ a (b32_Z 0) Fa eq_refl).
  replace (B2R (b32_Z 0)) with 0 by (vm_compute; reflexivity). destruct (Rlt_bool_spec (B2R a) 0) as [N|N]; intros F; [|rewrite VP in *; split; intros; lra].
  pose proof (add_val _ _ _ _ turn32 a FT Fa) as [Nn _].
  split.
  - intros G. split; [|exact N]. apply Rnot_le_lt. intros C.
    assert (L : leq (Bplus mode_NE turn32 a) (Bplus mode_NE turn32 edge32)).
    { apply (add_leq 24 128 _ _ turn32 a turn32 edge32); [apply leq_refl, fin_num, FT|apply up_fin_leq; try assumption; rewrite Ve; exact C|exact Nn|vm_compute; reflexivity]. }
    destruct (val32 (Bplus mode_NE turn32 edge32) 13176794 (-21) ltac:(vm_compute; reflexivity)) as [F' V']. apply leq_fin_R in L; try assumption. rewrite V', at21 in L. lra.
  - intros [G _]. assert (Fs : is_finite (Bsucc edge32) = true) by (vm_compute; reflexivity).
    assert (L : leq (Bplus mode_NE turn32 (Bsucc edge32)) (Bplus mode_NE turn32 a)).
    { apply (add_leq 24 128 _ _ turn32 (Bsucc edge32) turn32 a); [apply leq_refl, fin_num, FT| |vm_compute; reflexivity|exact Nn]. apply (above_succ 24 128 _ _); try assumption. rewrite Ve. exact G. }
    destruct (val32 (Bplus mode_NE turn32 (Bsucc edge32)) 13176795 (-21) ltac:(vm_compute; reflexivity)) as [F' V']. apply leq_fin_R in L; try assumption. rewrite V', at21 in L. lra.
Qed.

(** ** rv2coe *)
Lemma angle64 (a : b64) : (number a -> in_pi64 a) -> let g := @where_ b64 (Bltb a (b64_Z 0)) (b64_add (b64_mul (b64_Z 2) b64_pi) a) a in
  number g -> is_finite g = true /\ 0 <= B2R g < 2 * PI.
Proof.
  intros H g Ng. unfold g, where_ in *. destruct (is_nan a) eqn:E.
  - destruct a; try discriminate E. discriminate Ng.
  - exact (wrap64 a (H E)).
Qed.
Lemma angle32 (a : b32) : (number a -> in_pi32 a) -> let g := @where_ b32 (Bltb a (b32_Z 0)) (b32_add (b32_mul (b32_Z 2) b32_pi) a) a in
  number g -> is_finite g = true /\ 0 <= B2R g <= 13176795 / 2097152 /\ (2 * PI <= B2R g <-> - / 4194304 < B2R a < 0).
Proof.
  intros H g Ng. unfold g, where_ in *. destruct (is_nan a) eqn:E.
  - destruct a; try discriminate E. discriminate Ng.
  - exact (wrap32 a (H E)).
Qed.
Lemma angles_double (L : libm64) (r v : V3 b64) (mu : b64) : turns64 L -> let k := @rv2coe _ (Num_B64 L) r v mu in
  (number (coe_raan k) -> is_finite (coe_raan k) = true /\ 0 <= B2R (coe_raan k) < 2 * PI) /\
  (number (coe_argp k) -> is_finite (coe_argp k) = true /\ 0 <= B2R (coe_argp k) < 2 * PI) /\
  (number (coe_f k) -> is_finite (coe_f k) = true /\ 0 <= B2R (coe_f k) < 2 * PI).
Proof. intros T k. split; [|split]; (refine (angle64 _ _); intros N; exact (T _ _ N)). Qed.
Lemma inclination_double (L : libm64) (r v : V3 b64) (mu : b64) : halfturns64 L -> let g := coe_incl (@rv2coe _ (Num_B64 L) r v mu) in
  number g -> is_finite g = true /\ 0 <= B2R g < PI.
Proof.
  intros T g N. destruct (T _ N) as [A B]. destruct pi64_below as [V W]. assert (F : is_finite b64_pi = true) by (vm_compute; reflexivity).
  assert (G : is_finite g = true) by (eapply fin_between; [|exact F|exact A|exact B]; reflexivity). split; [exact G|]. change (leq zero g) in A. change (leq g b64_pi) in B.
  apply leq_fin_R in A, B; try assumption; try reflexivity. cbn [B2R zero] in A. lra.
Qed.
Lemma angles_single (L : libm) (r v : V3 b32) (mu : b32) : turns32 L -> let k := @rv2coe _ (Num_B32 L) r v mu in
  (number (coe_raan k) -> is_finite (coe_raan k) = true /\ 0 <= B2R (coe_raan k) <= 13176795 / 2097152) /\
  (number (coe_argp k) -> is_finite (coe_argp k) = true /\ 0 <= B2R (coe_argp k) <= 13176795 / 2097152) /\
  (number (coe_f k) -> is_finite (coe_f k) = true /\ 0 <= B2R (coe_f k) <= 13176795 / 2097152).
Proof.
  intros T k. assert (A : forall a : b32, (number a -> in_pi32 a) -> let g := @where_ b32 (Bltb a (b32_Z 0)) (b32_add (b32_mul (b32_Z 2) b32_pi) a) a in number g -> is_finite g = true /\ 0 <= B2R g <= 13176795 / 2097152).
  { intros a H g N. destruct (angle32 a H N) as (F & B & _). now split. }
  split; [|split]; (refine (A _ _); intros N; exact (T _ _ N)).
Qed.
Lemma ascension_single (L : libm) (n : V3 b32) : turns32 L -> number (@right_ascension _ (Num_B32 L) n) ->
  (2 * PI <= B2R (@right_ascension _ (Num_B32 L) n) <-> - / 4194304 < B2R (m_arctan2 L (c1 n) (c0 n)) < 0).
Proof. intros T N. exact (proj2 (proj2 (angle32 _ (T _ _) N))). Qed.
(** r = (1, -2^-30, 0), v = (0, 1, 1); r = (1, 0, 0), v = (0, -1, 0) *)
Definition hair32 : b32 := binary_normalize 24 128 _ _ mode_NE (-1) (-30) false.
Definition low_r : V3 b32 := mk3 (b32_Z 1) hair32 (b32_Z 0).
Definition low_v : V3 b32 := mk3 (b32_Z 0) (b32_Z 1) (b32_Z 1).
Definition back_r : V3 b32 := mk3 (b32_Z 1) (b32_Z 0) (b32_Z 0).
Definition back_v : V3 b32 := mk3 (b32_Z 0) (b32_Z (-1)) (b32_Z 0).
Lemma ascension_over (L : libm) : m_arctan2 L hair32 (b32_Z 1) = hair32 -> 2 * PI < B2R (coe_raan (@rv2coe _ (Num_B32 L) low_r low_v (b32_Z 1))).
Proof.
  intros H. cbn [rv2coe coe_raan]. unfold right_ascension. set (N := Num_B32 L). set (n := @node_vec _ N (@angular_momentum _ N low_r low_v)).
  assert (E0 : c0 n = b32_Z 1) by (apply B2SF_inj; vm_compute; reflexivity). assert (E1 : c1 n = hair32) by (apply B2SF_inj; vm_compute; reflexivity).
  rewrite E0, E1. change (@n_arctan2 _ N) with (m_arctan2 L). rewrite H.
  match goal with |- _ < B2R ?x => replace x with turn32; [apply turn32_above|apply B2SF_inj; vm_compute; reflexivity] end.
Qed.
Lemma inclination_over (L : libm) : m_arccos L (b32_Z (-1)) = b32_pi -> PI < B2R (coe_incl (@rv2coe _ (Num_B32 L) back_r back_v (b32_Z 1))).
Proof.
  intros H. cbn [rv2coe coe_incl]. unfold inclination. set (N := Num_B32 L). match goal with |- _ < B2R (n_arccos ?q) => replace q with (b32_Z (-1)) by (apply B2SF_inj; vm_compute; reflexivity) end.
  change (@n_arccos _ N) with (m_arccos L). rewrite H. destruct pi32_value as [_ V]. rewrite V. pose proof B32Closed.PI_digits. lra.
Qed.
