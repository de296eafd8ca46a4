(** * Model of /repo/src/astrodynx/utils/_rot_mat.py (one angle of a batch) *)
From Coq Require Import ZArith.
From Verif Require Import Num.
Local Open Scope num_scope.

Section RotMat.
  Context {T : Type} {N : Num T}.

  (* _rot_mat.py:6-60 *)
  Definition rotmat3dx (angle : T) : M3 T :=
    let c := n_cos angle in
    let s := n_sin angle in
    let z := #0 in
    let o := #1 in
    mk3 (mk3 o z z)
        (mk3 z c (- s))
        (mk3 z s c).

  (* _rot_mat.py:63-117 *)
  Definition rotmat3dy (angle : T) : M3 T :=
    let c := n_cos angle in
    let s := n_sin angle in
    let z := #0 in
    let o := #1 in
    mk3 (mk3 c z s)
        (mk3 z o z)
        (mk3 (- s) z c).

  (* _rot_mat.py:120-174 *)
  Definition rotmat3dz (angle : T) : M3 T :=
    let c := n_cos angle in
    let s := n_sin angle in
    let z := #0 in
    let o := #1 in
    mk3 (mk3 c (- s) z)
        (mk3 s c z)
        (mk3 z z o).
End RotMat.
