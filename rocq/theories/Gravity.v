(** * Model of /repo/src/astrodynx/gravity/_general.py and events/radius.py

    The state [x] is a list (a 1-d array); [args] is the python dict.  A missing
    key raises [KeyError], an empty array cannot be indexed. *)
From Coq Require Import ZArith List String.
Import ListNotations.
From Verif Require Import Num.
Local Open Scope num_scope.
Local Open Scope string_scope.

Inductive exn : Type := KeyError (k : string) | IndexError.
Inductive res (A : Type) : Type := Ok (a : A) | Raise (e : exn).
Arguments Ok {A} _.
Arguments Raise {A} _.

Definition bind {A B : Type} (m : res A) (f : A -> res B) : res B :=
  match m with Ok a => f a | Raise e => Raise e end.
Notation "'do' x <- m ;; k" := (bind m (fun x => k))
  (at level 60, x name, m at level 59, right associativity).

Section Gravity.
  Context {T : Type} {N : Num T}.

  Definition dict : Type := list (string * T).

  (** [args[k]] *)
  Fixpoint lookup (k : string) (d : dict) : res T :=
    match d with
    | nil => Raise (KeyError k)
    | (k', v) :: d' => if String.eqb k k' then Ok v else lookup k d'
    end.

  (** [x[i]] with a static non-negative index: jax clamps it into the array. *)
  Definition jget (x : list T) (i : nat) : res T :=
    match nth_error x (Nat.min i (List.length x - 1)) with
    | Some v => Ok v
    | None => Raise IndexError
    end.

  (** [jnp.linalg.vector_norm(x[:3])]: slicing truncates. *)
  Definition sumsq (l : list T) : T :=
    match l with
    | nil => #0
    | a :: l' => fold_left (fun acc b => acc + b * b) l' (a * a)
    end.
  Definition norm_first3 (x : list T) : T := n_sqrt (sumsq (firstn 3 x)).

  (* _general.py:8-42 *)
  Definition point_mass_grav (t : T) (x : list T) (args : dict) : res (V3 T) :=
    do mu <- lookup "mu" args ;;
    let mu_ := mu / norm_first3 x ** 3 in
    do x0 <- jget x 0 ;;
    do x1 <- jget x 1 ;;
    do x2 <- jget x 2 ;;
    Ok (mk3 ((- mu_) * x0) ((- mu_) * x1) ((- mu_) * x2)).

  (* _general.py:45-92 *)
  Definition j2_acc (t : T) (x : list T) (args : dict) : res (V3 T) :=
    do mu <- lookup "mu" args ;;
    do J2 <- lookup "J2" args ;;
    do R_eq <- lookup "R_eq" args ;;
    let r := norm_first3 x in
    do x2 <- jget x 2 ;;
    let zsq_over_rsq := (x2 / r) ** 2 in
    let factor := n_dec (-3) 2 * mu * J2 * R_eq ** 2 / r ** 5 in
    do x0 <- jget x 0 ;;
    let ax := factor * x0 * (#1 - #5 * zsq_over_rsq) in
    do x1 <- jget x 1 ;;
    let ay := factor * x1 * (#1 - #5 * zsq_over_rsq) in
    let az := factor * x2 * (#3 - #5 * zsq_over_rsq) in
    Ok (mk3 ax ay az).

  (* _general.py:95-145 *)
  Definition j3_acc (t : T) (x : list T) (args : dict) : res (V3 T) :=
    do mu <- lookup "mu" args ;;
    do J3 <- lookup "J3" args ;;
    do R_eq <- lookup "R_eq" args ;;
    let r := norm_first3 x in
    do x2 <- jget x 2 ;;
    let z3_over_rsq := x2 ** 3 / r ** 2 in
    let factor := n_dec (-5) 2 * mu * J3 * R_eq ** 3 / r ** 7 in
    do x0 <- jget x 0 ;;
    let ax := factor * x0 * (#3 * x2 - #7 * z3_over_rsq) in
    do x1 <- jget x 1 ;;
    let ay := factor * x1 * (#3 * x2 - #7 * z3_over_rsq) in
    let az := factor * (#6 * x2 ** 2 - #7 * z3_over_rsq * x2 - n_dec 3 5 * r ** 2) in
    Ok (mk3 ax ay az).

  (* _general.py:148-198 *)
  Definition j4_acc (t : T) (x : list T) (args : dict) : res (V3 T) :=
    do mu <- lookup "mu" args ;;
    do J4 <- lookup "J4" args ;;
    do R_eq <- lookup "R_eq" args ;;
    let r := norm_first3 x in
    do x2 <- jget x 2 ;;
    let zsq_over_rsq := (x2 / r) ** 2 in
    let factor := n_dec 15 8 * mu * J4 * R_eq ** 4 / r ** 7 in
    do x0 <- jget x 0 ;;
    let ax := factor * x0 * (#1 - #14 * zsq_over_rsq + #21 * zsq_over_rsq ** 2) in
    do x1 <- jget x 1 ;;
    let ay := factor * x1 * (#1 - #14 * zsq_over_rsq + #21 * zsq_over_rsq ** 2) in
    let az := factor * x2 * (#5 - #70 * zsq_over_rsq / #3 + #21 * zsq_over_rsq ** 2) in
    Ok (mk3 ax ay az).

  (** Default dictionaries, used when [args] is not given
      (_general.py:9, :46, :96, :149). *)
  Definition pm_default : dict := [("mu", n_dec 1 1)].
  Definition j2_default : dict := [("mu", n_dec 1 1); ("J2", n_dec 0 1); ("R_eq", n_dec 1 1)].
  Definition j3_default : dict := [("mu", n_dec 1 1); ("J3", n_dec 0 1); ("R_eq", n_dec 1 1)].
  Definition j4_default : dict := [("mu", n_dec 1 1); ("J4", n_dec 0 1); ("R_eq", n_dec 1 1)].
  (* events/radius.py:9 *)
  Definition radius_default : dict := [("rmin", n_dec 0 1)].

  (* events/radius.py:8-33 *)
  Definition radius_islow (t : T) (x : list T) (args : dict) : res T :=
    do rmin <- lookup "rmin" args ;;
    Ok (norm_first3 x - rmin).
End Gravity.
