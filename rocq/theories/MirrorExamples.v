(** * MirrorExamples: a symmetric library and runs behind the examples of C96 and C97 *)
From Coq Require Import ZArith Reals Lra Lia Bool List String.
From Flocq Require Import Core IEEE754.BinarySingleNaN.
From Verif Require Import Num NumB32 NumB64 LibmRef LibmRef64 Gravity KepEqu StateTrans PropKepler SpecMirror SgnFloat ZeroExamples.
Import ListNotations.

(** an odd and an even function from any function *)
Definition make_odd {p e : Z} (f : binary_float p e -> binary_float p e) (x : binary_float p e) : binary_float p e :=
  if Bsign x then Bopp (f (Babs x)) else f x.
Definition make_even {p e : Z} (f : binary_float p e -> binary_float p e) (x : binary_float p e) : binary_float p e := f (Babs x).
Definition sym_libm64 : libm64 := {|
  d_cbrt := d_cbrt ref_libm64; d_sin := make_odd (d_sin ref_libm64); d_cos := make_even (d_cos ref_libm64);
  d_sinh := make_odd (d_sinh ref_libm64); d_cosh := make_even (d_cosh ref_libm64); d_log := d_log ref_libm64;
  d_arccos := d_arccos ref_libm64; d_arctan2 := d_arctan2 ref_libm64 |}.
Definition sym_libm32 : libm := {|
  m_cbrt := m_cbrt ref_libm; m_sin := make_odd (m_sin ref_libm); m_cos := make_even (m_cos ref_libm);
  m_sinh := make_odd (m_sinh ref_libm); m_cosh := make_even (m_cosh ref_libm); m_log := m_log ref_libm;
  m_arccos := m_arccos ref_libm; m_arctan2 := m_arctan2 ref_libm |}.
Lemma odd_ok {p e : Z} (f : binary_float p e -> binary_float p e) : f B754_nan = B754_nan ->
  forall a, make_odd f (Bopp a) = Bopp (make_odd f a).
Proof.
  intros H a. unfold make_odd. destruct a as [[]|[]| |[] m x B]; cbn [Bsign Bopp Babs negb]; rewrite ?opp_opp; try reflexivity. now rewrite H.
Qed.
Lemma even_ok {p e : Z} (f : binary_float p e -> binary_float p e) (a : binary_float p e) : make_even f (Bopp a) = make_even f a.
Proof. unfold make_even. destruct a; reflexivity. Qed.
Lemma sym64_ok : (forall a, d_sin sym_libm64 (Bopp a) = Bopp (d_sin sym_libm64 a)) /\ (forall a, d_cos sym_libm64 (Bopp a) = d_cos sym_libm64 a) /\
  (forall a, d_sinh sym_libm64 (Bopp a) = Bopp (d_sinh sym_libm64 a)) /\ (forall a, d_cosh sym_libm64 (Bopp a) = d_cosh sym_libm64 a) /\
  (forall s, d_sin sym_libm64 (B754_zero s) = B754_zero s) /\ (forall s, d_sinh sym_libm64 (B754_zero s) = B754_zero s).
Proof.
  split; [apply odd_ok; reflexivity|]. split; [apply even_ok|]. split; [apply odd_ok; reflexivity|]. split; [apply even_ok|].
  split; intros []; reflexivity.
Qed.
Lemma sym32_ok : (forall a, m_sin sym_libm32 (Bopp a) = Bopp (m_sin sym_libm32 a)) /\ (forall a, m_cos sym_libm32 (Bopp a) = m_cos sym_libm32 a) /\
  (forall a, m_sinh sym_libm32 (Bopp a) = Bopp (m_sinh sym_libm32 a)) /\ (forall a, m_cosh sym_libm32 (Bopp a) = m_cosh sym_libm32 a) /\
  (forall s, m_sin sym_libm32 (B754_zero s) = B754_zero s) /\ (forall s, m_sinh sym_libm32 (B754_zero s) = B754_zero s).
Proof.
  split; [apply odd_ok; reflexivity|]. split; [apply even_ok|]. split; [apply odd_ok; reflexivity|]. split; [apply even_ok|].
  split; intros []; reflexivity.
Qed.
(** ten minutes ahead, and the mirror image in the plane z = 0 *)
Lemma mirror64_ex : match @kepler _ (Num_B64 sym_libm64) [b64_Z 600] zero64_x zero64_v (b64_Z 398600),
                          @kepler _ (Num_B64 sym_libm64) [b64_Z 600] (reflect (mk3 false false true) zero64_x) (reflect (mk3 false false true) zero64_v) (b64_Z 398600) with
  | [a], [b] => sf3 (reflect (mk3 false false true) (fst a)) = sf3 (fst b) /\ sf3 (reflect (mk3 false false true) (snd a)) = sf3 (snd b) /\
                sf3 (fst a) <> sf3 (fst b) /\ sf3 (fst a) <> sf3 zero64_x
  | _, _ => False end.
Proof. vm_compute. repeat split; discriminate. Qed.
Lemma mirror32_ex : match @kepler _ (Num_B32 sym_libm32) [b32_Z 600] zero32_x zero32_v (b32_Z 398600),
                          @kepler _ (Num_B32 sym_libm32) [b32_Z 600] (reflect (mk3 false false true) zero32_x) (reflect (mk3 false false true) zero32_v) (b32_Z 398600) with
  | [a], [b] => sf3 (reflect (mk3 false false true) (fst a)) = sf3 (fst b) /\ sf3 (reflect (mk3 false false true) (snd a)) = sf3 (snd b) /\
                sf3 (fst a) <> sf3 (fst b) /\ sf3 (fst a) <> sf3 zero32_x
  | _, _ => False end.
Proof. vm_compute. repeat split; discriminate. Qed.
(** back in time with the velocity reversed *)
Lemma reverse64_ex : match @kepler _ (Num_B64 sym_libm64) [b64_Z 600] zero64_x zero64_v (b64_Z 398600),
                          @kepler _ (Num_B64 sym_libm64) [b64_Z (-600)] zero64_x (@vneg _ (Num_B64 sym_libm64) zero64_v) (b64_Z 398600) with
  | [a], [b] => sf3 (fst a) = sf3 (fst b) /\ sf3 (@vneg _ (Num_B64 sym_libm64) (snd a)) = sf3 (snd b) /\ sf3 (fst a) <> sf3 zero64_x /\ sf3 (snd a) <> sf3 (snd b)
  | _, _ => False end.
Proof. vm_compute. repeat split; discriminate. Qed.
Lemma reverse32_ex : match @kepler _ (Num_B32 sym_libm32) [b32_Z 600] zero32_x zero32_v (b32_Z 398600),
                          @kepler _ (Num_B32 sym_libm32) [b32_Z (-600)] zero32_x (@vneg _ (Num_B32 sym_libm32) zero32_v) (b32_Z 398600) with
  | [a], [b] => sf3 (fst a) = sf3 (fst b) /\ sf3 (@vneg _ (Num_B32 sym_libm32) (snd a)) = sf3 (snd b) /\ sf3 (fst a) <> sf3 zero32_x /\ sf3 (snd a) <> sf3 (snd b)
  | _, _ => False end.
Proof. vm_compute. repeat split; discriminate. Qed.
(** the third harmonic above and below the equator *)
Lemma j3_ex : match @j3_acc _ (Num_B64 sym_libm64) (b64_Z 0) [b64_Z 3; b64_Z 1; b64_Z 2] [("mu", b64_Z 1); ("J3", b64_dec 1 4); ("R_eq", b64_Z 1)]%string,
                    @j3_acc _ (Num_B64 sym_libm64) (b64_Z 0) [b64_Z 3; b64_Z 1; b64_Z (-2)] [("mu", b64_Z 1); ("J3", b64_dec 1 4); ("R_eq", b64_Z 1)]%string with
  | Ok a, Ok b => sf3 (reflect (mk3 true true false) a) = sf3 b /\ sf3 a <> sf3 b | _, _ => False end.
Proof. vm_compute. repeat split; discriminate. Qed.
