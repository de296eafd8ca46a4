(** * Model of /repo/src/astrodynx/twobody/_lagrange.py *)
From Coq Require Import ZArith.
From Verif Require Import Num.
Local Open Scope num_scope.

Section Lagrange.
  Context {T : Type} {N : Num T}.

  (* _lagrange.py:8-45 *)
  Definition lagrange_F (U2 r0_mag : T) : T := #1 - U2 / r0_mag.

  (* _lagrange.py:48-100 *)
  Definition lagrange_G (U1 U2 sigma0 r0_mag mu : T) : T :=
    (r0_mag * U1 + sigma0 * U2) / n_sqrt mu.

  (* _lagrange.py:103-148  [-jnp.sqrt(mu) / r_mag * U1 / r0_mag] *)
  Definition lagrange_Ft (U1 r_mag r0_mag mu : T) : T :=
    (- n_sqrt mu) / r_mag * U1 / r0_mag.

  (* _lagrange.py:151-188 *)
  Definition lagrange_Gt (U2 r_mag : T) : T := #1 - U2 / r_mag.
End Lagrange.
