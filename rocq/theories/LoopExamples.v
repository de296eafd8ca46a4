(** * LoopExamples: runs in single precision behind the examples of [PropsLoops] *)
From Coq Require Import ZArith List.
Import ListNotations.
From Flocq Require Import Core IEEE754.BinarySingleNaN.
From Verif Require Import Num NumB32 OrbIntegrals Uniformulas KepEqu StateTrans PropKepler LibmRef.

(** the number of steps made *)
Definition steps {T : Type} (o : option (loop_state (T := T))) : option Z :=
  match o with Some (i, _, _) => Some i | None => None end.

Lemma lanes_steps :
  let N := Num_B32 ref_libm in
  map (fun t => steps (@uni_run _ N t (b32_dec 3 2) (b32_Z 1) (b32_dec 1 4) (b32_Z 1) (b32_dec 1 1000000) 50))
    [b32_Z 0; b32_Z 1; b32_Z 5; b32_Z 20] = [Some 0; Some 3; Some 4; Some 50]%Z.
Proof. vm_compute. reflexivity. Qed.

Lemma solver_steps :
  let N := Num_B32 ref_libm in
  steps (@elps_run _ N (b32_Z 1) (b32_dec 1 2) (@default_tol _ N) elps_max_iter) = Some 3%Z /\
  steps (@elps_run _ N B754_nan (b32_dec 1 2) (@default_tol _ N) elps_max_iter) = Some 0%Z /\
  steps (@hypb_run _ N (b32_Z 1) (b32_Z 2) (@default_tol _ N) hypb_max_iter) = Some 3%Z.
Proof. vm_compute. repeat split. Qed.
