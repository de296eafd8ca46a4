(** * SwapExamples: runs behind the examples of C107 *)
From Coq Require Import ZArith Reals Bool List String.
From Flocq Require Import Core IEEE754.BinarySingleNaN.
From Verif Require Import Num NumB32 NumB64 LibmRef LibmRef64 OrbIntegrals PathCheck Gravity PropKepler StateTrans SpecMirror SpecSwap ZeroExamples.
Import ListNotations.

(** ten minutes ahead, and the same with x and y exchanged *)
Lemma swap64_ex : match @kepler _ (Num_B64 ref_libm64) [b64_Z 600] zero64_x zero64_v (b64_Z 398600),
                        @kepler _ (Num_B64 ref_libm64) [b64_Z 600] (exchange zero64_x) (exchange zero64_v) (b64_Z 398600) with
  | [a], [b] => sf3 (fst b) = sf3 (exchange (fst a)) /\ sf3 (snd b) = sf3 (exchange (snd a)) /\ sf3 (fst a) <> sf3 (fst b) /\ sf3 (fst a) <> sf3 zero64_x
  | _, _ => False end.
Proof. vm_compute. repeat split; discriminate. Qed.
Lemma swap32_ex : match @kepler _ (Num_B32 ref_libm) [b32_Z 600] zero32_x zero32_v (b32_Z 398600),
                        @kepler _ (Num_B32 ref_libm) [b32_Z 600] (exchange zero32_x) (exchange zero32_v) (b32_Z 398600) with
  | [a], [b] => sf3 (fst b) = sf3 (exchange (fst a)) /\ sf3 (snd b) = sf3 (exchange (snd a)) /\ sf3 (fst a) <> sf3 (fst b) /\ sf3 (fst a) <> sf3 zero32_x
  | _, _ => False end.
Proof. vm_compute. repeat split; discriminate. Qed.
(** the eccentricity vector, too *)
Lemma swap_ecc : let N := Num_B64 ref_libm64 in
  let e := @eccentricity_vector _ N zero64_x zero64_v (b64_Z 398600) in let e' := @eccentricity_vector _ N (exchange zero64_x) (exchange zero64_v) (b64_Z 398600) in
  sf3 e' = sf3 (exchange e) /\ sf3 e' <> sf3 e.
Proof. vm_compute. split; [reflexivity|discriminate]. Qed.

(** y and z exchanged: the sum of squares is rounded differently *)
Lemma last_64 : forall L : libm64, B2SF (@vector_norm _ (Num_B64 L) (mk3 (b64_dec 12303 10) (b64_dec 63945 10) (b64_dec 3716 10))) <>
  B2SF (@vector_norm _ (Num_B64 L) (exchange_last (mk3 (b64_dec 12303 10) (b64_dec 63945 10) (b64_dec 3716 10)))).
Proof. intros L. vm_compute. discriminate. Qed.
Lemma last_32 : forall L : libm, B2SF (@vector_norm _ (Num_B32 L) (mk3 (b32_Z 2942) (b32_Z 845) (b32_Z 2943))) <>
  B2SF (@vector_norm _ (Num_B32 L) (exchange_last (mk3 (b32_Z 2942) (b32_Z 845) (b32_Z 2943)))).
Proof. intros L. vm_compute. discriminate. Qed.
Lemma last_64_differ : forall L : libm64, exists x : V3 b64, @vector_norm _ (Num_B64 L) (exchange_last x) <> @vector_norm _ (Num_B64 L) x.
Proof. intros L. eexists. intros H. apply (last_64 L). now rewrite H. Qed.
Lemma last_32_differ : forall L : libm, exists x : V3 b32, @vector_norm _ (Num_B32 L) (exchange_last x) <> @vector_norm _ (Num_B32 L) x.
Proof. intros L. eexists. intros H. apply (last_32 L). now rewrite H. Qed.
