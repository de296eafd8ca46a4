(** * JFacts: the formulas on Python numbers and on int32 and float32 arrays. *)
From Coq Require Import ZArith Reals Lra Lia List Bool String.
From Flocq Require Import Core IEEE754.BinarySingleNaN.
From Verif Require Import Num NumB32 NumB64 NumJ OrbIntegrals KepEqu Uniformulas Lagrange Gravity.
Local Open Scope Z_scope.

Lemma two_pi32 : to32 (b64_mul (b64_Z 2) b64_pi) = b32_mul (b32_Z 2) b32_pi.
Proof. apply B2SF_inj. vm_compute. reflexivity. Qed.

Arguments to32 : simpl never.
Arguments b32_Z : simpl never.
Arguments b64_Z : simpl never.

Ltac jcbn := cbn [n_Z n_dec n_pi n_add n_sub n_mul n_div n_neg n_abs n_sqrt n_cbrt n_sin n_cos n_sinh n_cosh n_log
  n_arccos n_arctan2 n_floor n_max n_lt Num_J Num_B32 npow npow_aux mul_opt ring_op j_div j_neg j_abs j_fun
  j_fun2 j_max j_lt meet vinner vcross vzip3 vmap3 c0 c1 c2 Num_B64].


Lemma dec32 (p : Z) (q : positive) : B2SF (to32 (b64_dec p q)) = B2SF (b32_dec p q) -> to32 (b64_dec p q) = b32_dec p q.
Proof. apply B2SF_inj. Qed.

Lemma dec_32 : to32 (b64_dec (-3) 2) = b32_dec (-3) 2.
Proof. apply dec32. vm_compute. reflexivity. Qed.
Lemma dec_52 : to32 (b64_dec (-5) 2) = b32_dec (-5) 2.
Proof. apply dec32. vm_compute. reflexivity. Qed.
Lemma dec_35 : to32 (b64_dec 3 5) = b32_dec 3 5.
Proof. apply dec32. vm_compute. reflexivity. Qed.
Lemma dec_158 : to32 (b64_dec 15 8) = b32_dec 15 8.
Proof. apply dec32. vm_compute. reflexivity. Qed.
Lemma dec_tol : to32 (b64_dec 1 1000000) = b32_dec 1 1000000.
Proof. apply dec32. vm_compute. reflexivity. Qed.
Lemma tol_twice : to32 (b64_mul (b64_Z 2) (b64_dec 1 1000000)) = b32_mul (b32_Z 2) (b32_dec 1 1000000).
Proof. apply B2SF_inj. vm_compute. reflexivity. Qed.

Ltac small := repeat match goal with |- context [fits ?z] => change (fits z) with true end.
Ltac jeq := unfold npow, where_, n_gt; repeat (progress (jcbn; unfold ring_op, j_div, j_neg, j_abs, j_fun, j_fun2, j_lt; small));
  rewrite ?two_pi32, ?dec_32, ?dec_52, ?dec_35, ?dec_158, ?dec_tol, ?tol_twice.

Section F.
Variable L : libm.
Notation J := (Num_J L).
Notation B := (Num_B32 L).
Notation arr := (vmap3 F32).

Lemma arrays_integrals (a mu r v h P p e f : b32) :
  @orb_period _ J (F32 a) (F32 mu) = F32 (@orb_period _ B a mu) /\
  @semimajor_axis _ J (F32 r) (F32 v) (F32 mu) = F32 (@semimajor_axis _ B r v mu) /\
  @semiparameter _ J (F32 h) (F32 mu) = F32 (@semiparameter _ B h mu) /\
  @mean_motion _ J (F32 P) = F32 (@mean_motion _ B P) /\
  @equ_of_orbit _ J (F32 p) (F32 e) (F32 f) = F32 (@equ_of_orbit _ B p e f) /\
  @radius_periapsis _ J (F32 p) (F32 e) = F32 (@radius_periapsis _ B p e) /\
  @radius_apoapsis _ J (F32 p) (F32 e) = F32 (@radius_apoapsis _ B p e) /\
  @semipara_from_ae _ J (F32 a) (F32 e) = F32 (@semipara_from_ae _ B a e) /\
  @a_from_pe _ J (F32 p) (F32 e) = F32 (@a_from_pe _ B p e).
Proof.
  repeat split; unfold orb_period, semimajor_axis, semiparameter, mean_motion, equ_of_orbit, radius_periapsis,
    radius_apoapsis, semipara_from_ae, a_from_pe; jeq; reflexivity.
Qed.

Lemma arrays_vectors (x v : V3 b32) (mu : b32) :
  @angular_momentum _ J (arr x) (arr v) = arr (@angular_momentum _ B x v) /\
  @eccentricity_vector _ J (arr x) (arr v) (F32 mu) = arr (@eccentricity_vector _ B x v mu) /\
  @sigma_fn _ J (arr x) (arr v) (F32 mu) = F32 (@sigma_fn _ B x v mu).
Proof. repeat split. Qed.

Lemma arrays_kepler (E e M H Nm a dt mu : b32) :
  @kepler_equ_elps _ J (F32 E) (F32 e) (F32 M) = F32 (@kepler_equ_elps _ B E e M) /\
  @dE _ J (F32 E) (F32 e) = F32 (@dE _ B E e) /\
  @kepler_equ_hypb _ J (F32 H) (F32 e) (F32 Nm) = F32 (@kepler_equ_hypb _ B H e Nm) /\
  @dH _ J (F32 H) (F32 e) = F32 (@dH _ B H e) /\
  @mean_anomaly_elps _ J (F32 a) (F32 dt) (F32 mu) = F32 (@mean_anomaly_elps _ B a dt mu) /\
  @mean_anomaly_hypb _ J (F32 a) (F32 dt) (F32 mu) = F32 (@mean_anomaly_hypb _ B a dt mu).
Proof. repeat split. Qed.

Ltac ub := match goal with |- context [Bltb ?a ?b] => destruct (Bltb a b) end.

Lemma u1 chi alpha : @ufunc1 _ J (F32 chi) (F32 alpha) = F32 (@ufunc1 _ B chi alpha).
Proof. unfold ufunc1; jeq; repeat ub; reflexivity. Qed.
Lemma u2 chi alpha : @ufunc2 _ J (F32 chi) (F32 alpha) = F32 (@ufunc2 _ B chi alpha).
Proof. unfold ufunc2; jeq; repeat ub; reflexivity. Qed.
Lemma u3 chi alpha : @ufunc3 _ J (F32 chi) (F32 alpha) = F32 (@ufunc3 _ B chi alpha).
Proof. unfold ufunc3; jeq; repeat ub; reflexivity. Qed.
Lemma u4 chi alpha : @ufunc4 _ J (F32 chi) (F32 alpha) = F32 (@ufunc4 _ B chi alpha).
Proof. unfold ufunc4; jeq; repeat ub; reflexivity. Qed.
Lemma u5 chi alpha : @ufunc5 _ J (F32 chi) (F32 alpha) = F32 (@ufunc5 _ B chi alpha).
Proof. unfold ufunc5; jeq; repeat ub; reflexivity. Qed.

Lemma arrays_universal (chi alpha : b32) :
  @ufunc1 _ J (F32 chi) (F32 alpha) = F32 (@ufunc1 _ B chi alpha) /\
  @ufunc2 _ J (F32 chi) (F32 alpha) = F32 (@ufunc2 _ B chi alpha) /\
  @ufunc3 _ J (F32 chi) (F32 alpha) = F32 (@ufunc3 _ B chi alpha) /\
  @ufunc4 _ J (F32 chi) (F32 alpha) = F32 (@ufunc4 _ B chi alpha) /\
  @ufunc5 _ J (F32 chi) (F32 alpha) = F32 (@ufunc5 _ B chi alpha).
Proof. repeat split; [apply u1 | apply u2 | apply u3 | apply u4 | apply u5]. Qed.

Lemma j_dchi chi alpha r0 s0 : @dchi _ J (F32 chi) (F32 alpha) (F32 r0) (F32 s0) = F32 (@dchi _ B chi alpha r0 s0).
Proof.
  unfold dchi, equ_of_orb_uvi. rewrite u1, u2. unfold ufunc0. jeq. repeat ub; reflexivity.
Qed.
Lemma j_kuni chi alpha r0 s0 t mu : @kepler_equ_uni _ J (F32 chi) (F32 alpha) (F32 r0) (F32 s0) (F32 t) (F32 mu) =
  F32 (@kepler_equ_uni _ B chi alpha r0 s0 t mu).
Proof. unfold kepler_equ_uni. rewrite u1, u2, u3. jeq. reflexivity. Qed.

(** the loops: the state is carried through *)
Definition lift (s : Z * b32 * b32) : Z * val * val := let '(i, a, b) := s in (i, F32 a, F32 b).

Lemma loop_lift (n : nat) cj bj cb bb s :
  (forall s, cj (lift s) = cb s) -> (forall s, bj (lift s) = lift (bb s)) ->
  while_fuel n cj bj (lift s) = option_map lift (while_fuel n cb bb s).
Proof.
  intros C D. revert s. induction n as [| n IH]; intro s; [reflexivity |].
  cbn [while_fuel]. rewrite C. destruct (cb s); [rewrite D; apply IH | reflexivity].
Qed.

Lemma elps_arrays (M e : b32) (k : Z) :
  @solve_kepler_elps _ J (F32 M) (F32 e) (@default_tol _ J) k = F32 (@solve_kepler_elps _ B M e (@default_tol _ B) k).
Proof.
  unfold solve_kepler_elps, elps_run.
  assert (I : @elps_init _ J (F32 M) (F32 e) (@default_tol _ J) = lift (@elps_init _ B M e (@default_tol _ B))).
  { unfold elps_init, elps_guess, default_tol, lift. jeq. reflexivity. }
  rewrite I, (loop_lift _ _ _ (@elps_cond _ B (@default_tol _ B) k) (@elps_body _ B M e)).
  - destruct (while_fuel _ _ _ _) as [[[i x] y] |]; [reflexivity |]. cbn [option_map]. unfold elps_guess. jeq. reflexivity.
  - intros [[i x] y]. unfold lift, elps_cond, exceeds, default_tol. jeq. reflexivity.
  - intros [[i x] y]. unfold lift, elps_body, dE. jeq. reflexivity.
Qed.

Lemma hypb_arrays (M e : b32) (k : Z) :
  @solve_kepler_hypb _ J (F32 M) (F32 e) (@default_tol _ J) k = F32 (@solve_kepler_hypb _ B M e (@default_tol _ B) k).
Proof.
  unfold solve_kepler_hypb, hypb_run.
  assert (I : @hypb_init _ J (F32 M) (F32 e) (@default_tol _ J) = lift (@hypb_init _ B M e (@default_tol _ B))).
  { unfold hypb_init, hypb_guess, default_tol, lift. jeq. reflexivity. }
  rewrite I, (loop_lift _ _ _ (@hypb_cond _ B M e (@default_tol _ B) k) (@hypb_body _ B M e)).
  - destruct (while_fuel _ _ _ _) as [[[i x] y] |]; [reflexivity |]. cbn [option_map]. unfold hypb_guess. jeq. reflexivity.
  - intros [[i x] y]. unfold lift, hypb_cond, exceeds, default_tol, kepler_equ_hypb. jeq. reflexivity.
  - intros [[i x] y]. unfold lift, hypb_body, dH, kepler_equ_hypb. jeq. reflexivity.
Qed.

Lemma uni_arrays (t alpha r0 s0 mu : b32) (k : Z) :
  @solve_kepler_uni _ J (F32 t) (F32 alpha) (F32 r0) (F32 s0) (F32 mu) (@default_tol _ J) k =
  F32 (@solve_kepler_uni _ B t alpha r0 s0 mu (@default_tol _ B) k).
Proof.
  unfold solve_kepler_uni, uni_run.
  assert (I : @uni_init _ J (F32 t) (F32 alpha) (F32 mu) (@default_tol _ J) =
    lift (@uni_init _ B t alpha mu (@default_tol _ B))).
  { unfold uni_init, uni_guess, default_tol, lift. jeq. reflexivity. }
  rewrite I, (loop_lift _ _ _ (@uni_cond _ B t alpha r0 s0 mu (@default_tol _ B) k) (@uni_body _ B t alpha r0 s0 mu)).
  - destruct (while_fuel _ _ _ _) as [[[i x] y] |]; [reflexivity |]. cbn [option_map]. unfold uni_guess. jeq. reflexivity.
  - intros [[i x] y]. unfold lift, uni_cond, exceeds, default_tol. rewrite j_kuni. jeq. reflexivity.
  - intros [[i x] y]. unfold lift, uni_body. rewrite j_kuni, j_dchi. jeq. reflexivity.
Qed.

(** gravity *)
Definition rmap {A B : Type} (f : A -> B) (r : res A) : res B := match r with Ok a => Ok (f a) | Raise e => Raise e end.
Definition darr (d : list (string * b32)) : list (string * val) := map (fun kv => (fst kv, F32 (snd kv))) d.

Lemma lookup_arr k d : lookup k (darr d) = rmap F32 (lookup k d).
Proof. induction d as [| [k' v] d IH]; [reflexivity |]. cbn. destruct (String.eqb k k'); [reflexivity | exact IH]. Qed.

Lemma jget_arr (x : list b32) i : jget (map F32 x) i = rmap F32 (jget x i).
Proof. unfold jget. rewrite map_length, nth_error_map. destruct (nth_error x _); reflexivity. Qed.

Lemma sum_arr (l : list b32) (s : b32) :
  fold_left (fun acc b => @n_add _ J acc (@n_mul _ J b b)) (map F32 l) (F32 s) =
  F32 (fold_left (fun acc b => b32_add acc (b32_mul b b)) l s).
Proof. revert s. induction l as [| a l IH]; intro s; [reflexivity |]. cbn [map fold_left]. rewrite <- IH. reflexivity. Qed.

Lemma norm_arr (x : list b32) : @norm_first3 _ J (map F32 x) = F32 (@norm_first3 _ B x).
Proof.
  unfold norm_first3. rewrite firstn_map. destruct (firstn 3 x) as [| a l]; [reflexivity |].
  cbn [map]. unfold sumsq. pose proof (sum_arr l (b32_mul a a)) as E.
  change (@n_mul _ J (F32 a) (F32 a)) with (F32 (b32_mul a a)). rewrite E. reflexivity.
Qed.

Ltac gr := repeat match goal with
  | |- context [lookup ?k (darr ?d)] => rewrite (lookup_arr k d); destruct (lookup k d); cbn [rmap bind]; [| reflexivity]
  | |- context [jget (map F32 ?x) ?i] => rewrite (jget_arr x i); destruct (jget x i); cbn [rmap bind]; [| reflexivity]
  end.

Lemma arrays_gravity (t : b32) (x : list b32) (d : list (string * b32)) :
  @point_mass_grav _ J (F32 t) (map F32 x) (darr d) = rmap (vmap3 F32) (@point_mass_grav _ B t x d) /\
  @j2_acc _ J (F32 t) (map F32 x) (darr d) = rmap (vmap3 F32) (@j2_acc _ B t x d) /\
  @j3_acc _ J (F32 t) (map F32 x) (darr d) = rmap (vmap3 F32) (@j3_acc _ B t x d) /\
  @j4_acc _ J (F32 t) (map F32 x) (darr d) = rmap (vmap3 F32) (@j4_acc _ B t x d).
Proof.
  repeat split; unfold point_mass_grav, j2_acc, j3_acc, j4_acc; rewrite norm_arr; gr; jeq; reflexivity.
Qed.
End F.
