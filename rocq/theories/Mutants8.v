(** * Mutants8: wrong rules of differentiation and promotion, and the properties that are false of them (see [Mutants]) *)
From Coq Require Import Reals Lra Lia ZArith List String.
From Coquelicot Require Import Coquelicot.
From Flocq Require Import Core IEEE754.BinarySingleNaN.
From Verif Require Import Num NumR NumD SpecAd NumB32 NumB64 LibmRef PathCheck PathFacts KepEqu SolveElps AdFloor.
From Verif Require NumJ.
Local Open Scope R_scope.

Definition m136_Num_D : Num dual := {|
  n_Z := @n_Z _ Num_D; n_dec := @n_dec _ Num_D; n_pi := @n_pi _ Num_D; n_add := @n_add _ Num_D; n_sub := @n_sub _ Num_D;
  n_mul := @n_mul _ Num_D; n_div := @n_div _ Num_D; n_neg := @n_neg _ Num_D; n_abs := @n_abs _ Num_D; n_sqrt := @n_sqrt _ Num_D;
  n_cbrt := @n_cbrt _ Num_D; n_sin := @n_sin _ Num_D; n_cos := @n_cos _ Num_D; n_sinh := @n_sinh _ Num_D; n_cosh := @n_cosh _ Num_D;
  n_log := @n_log _ Num_D; n_arccos := @n_arccos _ Num_D; n_arctan2 := @n_arctan2 _ Num_D;
  n_floor := fun a => mkD (floorR (val a)) (tang a);
  n_max := @n_max _ Num_D; n_lt := @n_lt _ Num_D |}.
Lemma m136_C56_nmax : ~ (forall (s : R) rp r1 r2 tof mu d1 d2 d3 d4 d5,
  carries rp s d1 -> carries r1 s d2 -> carries r2 s d3 -> carries tof s d4 -> carries mu s d5 ->
  0 < mu s -> 0 < Rmax (r1 s) (r2 s) + rp s ->
  (forall k : Z, tof s <> IZR k * (2 * PI * sqrt (((Rmax (r1 s) (r2 s) + rp s) / 2) ^ 3 / mu s))) ->
  carries (fun u => nmax_by_periapsis (rp u) (r1 u) (r2 u) (tof u) (mu u)) s (@nmax_by_periapsis _ m136_Num_D d1 d2 d3 d4 d5)).
Proof.
  intros H. destruct nmax_jump as (_ & _ & [_ C] & _). pose proof PI_tight as P.
  assert (K : carries (fun tof => nmax_by_periapsis 1 1 1 tof 1) 7 (@nmax_by_periapsis _ m136_Num_D (konst 1) (konst 1) (konst 1) (mkD 7 1) (konst 1))).
  { apply (H 7 (fun _ => 1) (fun _ => 1) (fun _ => 1) (fun u => u) (fun _ => 1)); try (split; [reflexivity|]).
    1-3,5: apply (is_derive_const (K := R_AbsRing) (V := R_NormedModule)).
    - apply (is_derive_id (K := R_AbsRing)).
    - lra.
    - rewrite Rmax_left; lra.
    - intros k E. rewrite Rmax_left in E by lra. replace (((1 + 1) / 2) ^ 3 / 1) with 1 in E by field. rewrite sqrt_1, Rmult_1_r in E.
      assert (A : IZR 1 < IZR k) by (apply Rmult_lt_reg_r with (2 * PI); lra). assert (B : IZR k < IZR 2) by (apply Rmult_lt_reg_r with (2 * PI); lra).
      apply lt_IZR in A. apply lt_IZR in B. lia. }
  destruct K as [_ K]. pose proof (is_derive_unique _ _ _ C) as E1. pose proof (is_derive_unique _ _ _ K) as E2. rewrite E1 in E2. revert E2.
  unfold nmax_by_periapsis. cbn. rewrite Rmax_left by lra.
  destruct (Rlt_dec 1 1) as [A|_]; [lra|]. replace (1 / 2 * (1 + 1)) with 1 by field. replace (1 / (1 * (1 * 1))) with 1 by field. rewrite sqrt_1.
  intros E. assert (Q : 1 / (2 * PI) = 0).
  { rewrite E. field. lra. }
  assert (0 < 1 / (2 * PI)) by (apply Rdiv_lt_0_compat; lra). lra.
Qed.

(** functions of jax.numpy that hand a Python float back *)
Section Promotion.
  Import NumJ.
  Definition m152_fun (f : b32 -> b32) (x : val) : val := match x with PyF a => PyF a | _ => j_fun f x end.
  Definition m152_Num_J (L : libm) : Num val := {|
    n_Z := @n_Z _ (Num_J L); n_dec := @n_dec _ (Num_J L); n_pi := @n_pi _ (Num_J L); n_add := @n_add _ (Num_J L); n_sub := @n_sub _ (Num_J L);
    n_mul := @n_mul _ (Num_J L); n_div := @n_div _ (Num_J L); n_neg := @n_neg _ (Num_J L); n_abs := @n_abs _ (Num_J L); n_sqrt := m152_fun b32_sqrt;
    n_cbrt := m152_fun (m_cbrt L); n_sin := m152_fun (m_sin L); n_cos := m152_fun (m_cos L); n_sinh := m152_fun (m_sinh L); n_cosh := m152_fun (m_cosh L);
    n_log := m152_fun (m_log L); n_arccos := m152_fun (m_arccos L); n_arctan2 := @n_arctan2 _ (Num_J L); n_floor := m152_fun b32_floor;
    n_max := @n_max _ (Num_J L); n_lt := @n_lt _ (Num_J L) |}.
  Lemma m152_C72_anomalies : ~ (forall (L : libm) (E e M : b64),
    @kepler_equ_elps _ (m152_Num_J L) (PyF E) (PyF e) (PyF M) = F32 (@kepler_equ_elps _ (Num_B32 L) (to32 E) (to32 e) (to32 M))).
  Proof. intros H. specialize (H ref_libm (b64_Z 0) (b64_Z 0) (b64_Z 0)). discriminate H. Qed.
End Promotion.
