(** * JScalar: Python floats that pass through a function of [jax.numpy] *)
From Coq Require Import ZArith Reals Bool.
From Flocq Require Import Core IEEE754.BinarySingleNaN.
From Verif Require Import Num NumB32 NumB64 NumJ OrbIntegrals KepEqu LibmRef.

Lemma scalars (L : libm) (E e M H Nm p f : b64) : let J := Num_J L in let B := Num_B32 L in
  @kepler_equ_elps _ J (PyF E) (PyF e) (PyF M) = F32 (@kepler_equ_elps _ B (to32 E) (to32 e) (to32 M)) /\
  @dE _ J (PyF E) (PyF e) = F32 (@dE _ B (to32 E) (to32 e)) /\
  @kepler_equ_hypb _ J (PyF H) (PyF e) (PyF Nm) = F32 (@kepler_equ_hypb _ B (to32 H) (to32 e) (to32 Nm)) /\
  @dH _ J (PyF H) (PyF e) = F32 (@dH _ B (to32 H) (to32 e)) /\
  @equ_of_orbit _ J (PyF p) (PyF e) (PyF f) = F32 (@equ_of_orbit _ B (to32 p) (to32 e) (to32 f)).
Proof. repeat split; reflexivity. Qed.
Lemma int_scalars (L : libm) (E e M p f : Z) : let J := Num_J L in let B := Num_B32 L in let small z := (- 2 ^ 31 <= z < 2 ^ 31)%Z in
  small E -> small e -> small M -> small p -> small f ->
  @kepler_equ_elps _ J (PyI E) (PyI e) (PyI M) = F32 (@kepler_equ_elps _ B (b32_Z E) (b32_Z e) (b32_Z M)) /\
  @dE _ J (PyI E) (PyI e) = F32 (@dE _ B (b32_Z E) (b32_Z e)) /\
  @equ_of_orbit _ J (PyI p) (PyI e) (PyI f) = F32 (@equ_of_orbit _ B (b32_Z p) (b32_Z e) (b32_Z f)).
Proof.
  cbv zeta. intros HE He HM Hp Hf. assert (F : forall z, (- 2 ^ 31 <= z < 2 ^ 31)%Z -> fits z = true).
  { intros z [A B]. unfold fits. apply andb_true_intro. split; [now apply Z.leb_le|now apply Z.ltb_lt]. }
  pose proof (F _ HE) as FE. pose proof (F _ He) as Fe. pose proof (F _ HM) as FM. pose proof (F _ Hp) as Fp. pose proof (F _ Hf) as Ff.
  split; [|split].
  - unfold kepler_equ_elps. cbn [n_sub n_mul n_sin Num_J]. unfold j_fun. rewrite FE. unfold ring_op, meet. rewrite Fe, FE, FM. reflexivity.
  - unfold dE. cbn [n_sub n_mul n_cos n_Z Num_J]. unfold j_fun. rewrite FE. unfold ring_op, meet. rewrite Fe. reflexivity.
  - unfold equ_of_orbit. cbn [n_add n_mul n_div n_cos n_Z Num_J]. unfold j_fun. rewrite Ff. unfold ring_op, j_div, meet. rewrite Fe, Fp. reflexivity.
Qed.
Lemma scalar_case : match @kepler_equ_elps _ (Num_J ref_libm) (PyF (b64_Z 0)) (PyF (b64_dec 1 2)) (PyF (b64_dec 1 10)) with
    F32 x => B2SF x = SpecFloat.S754_finite true 13421773 (-27) | _ => False end /\
  @kepler_equ_elps _ (Num_J ref_libm) (PyI (2 ^ 31)) (PyI 0) (PyI 0) = Exc OverflowError.
Proof. split; vm_compute; reflexivity. Qed.
