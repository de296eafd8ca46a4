(** * Model of /repo/src/astrodynx/twobody/_uniformulas.py

    [chi] is one element of the (possibly batched) generalized anomaly; [alpha]
    is a scalar, as [jax.lax.cond] requires.  The two nested [lax.cond] are two
    nested [where_]: only the taken branch matters for the value. *)
From Coq Require Import ZArith.
From Verif Require Import Num.
Local Open Scope num_scope.

Section Uniformulas.
  Context {T : Type} {N : Num T}.

  (* _uniformulas.py:9-50; the (1,)-shaped result is modelled by its element *)
  Definition sigma_fn (pos_vec vel_vec : V3 T) (mu : T) : T :=
    vinner pos_vec vel_vec / n_sqrt mu.

  (* _uniformulas.py:53-102 *)
  Definition ufunc0 (chi alpha : T) : T :=
    where_ (n_gt alpha #0)
      (n_cos (n_sqrt alpha * chi))
      (where_ (n_lt alpha #0)
        (n_cosh (n_sqrt (- alpha) * chi))
        #1).

  (* _uniformulas.py:105-154 *)
  Definition ufunc1 (chi alpha : T) : T :=
    where_ (n_gt alpha #0)
      (n_sin (n_sqrt alpha * chi) / n_sqrt alpha)
      (where_ (n_lt alpha #0)
        (n_sinh (n_sqrt (- alpha) * chi) / n_sqrt (- alpha))
        chi).

  (* _uniformulas.py:157-206 *)
  Definition ufunc2 (chi alpha : T) : T :=
    where_ (n_gt alpha #0)
      ((#1 - n_cos (n_sqrt alpha * chi)) / alpha)
      (where_ (n_lt alpha #0)
        ((n_cosh (n_sqrt (- alpha) * chi) - #1) / (- alpha))
        (chi ** 2 / #2)).

  (* _uniformulas.py:209-262 *)
  Definition ufunc3 (chi alpha : T) : T :=
    where_ (n_gt alpha #0)
      ((n_sqrt alpha * chi - n_sin (n_sqrt alpha * chi)) / alpha / n_sqrt alpha)
      (where_ (n_lt alpha #0)
        ((n_sqrt (- alpha) * chi - n_sinh (n_sqrt (- alpha) * chi))
           / alpha / n_sqrt (- alpha))
        (chi ** 3 / #6)).

  (* _uniformulas.py:265-316 *)
  Definition ufunc4 (chi alpha : T) : T :=
    where_ (n_gt alpha #0)
      ((alpha * chi ** 2 - #2 + #2 * n_cos (n_sqrt alpha * chi)) / (#2 * alpha ** 2))
      (where_ (n_lt alpha #0)
        ((alpha * chi ** 2 - #2 + #2 * n_cosh (n_sqrt (- alpha) * chi))
           / (#2 * alpha ** 2))
        (chi ** 4 / #24)).

  (* _uniformulas.py:319-378 *)
  Definition ufunc5 (chi alpha : T) : T :=
    where_ (n_gt alpha #0)
      ((alpha ** 2 * chi ** 3 - #6 * alpha * chi
          + #6 * n_sqrt alpha * n_sin (n_sqrt alpha * chi)) / (#6 * alpha ** 3))
      (where_ (n_lt alpha #0)
        ((alpha ** 2 * chi ** 3 - #6 * alpha * chi
            - #6 * n_sqrt (- alpha) * n_sinh (n_sqrt (- alpha) * chi))
           / (#6 * alpha ** 3))
        (chi ** 5 / #120)).
End Uniformulas.
