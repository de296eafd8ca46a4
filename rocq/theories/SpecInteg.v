(** * SpecInteg: what a numerical integrator is supposed to do

    The contract of an ODE integrator with the interface of diffrax' [diffeqsolve], as far as the
    wrappers of /repo/src/astrodynx/prop/_cowell_method.py rely on it. *)
From Coq Require Import Reals ZArith List String.
From Coquelicot Require Import Coquelicot.
From Verif Require Import Num NumR Spec SpecGrav PathCheck Gravity Cowell.
Import ListNotations.
Local Open Scope R_scope.

(** The user's problem is handed over unchanged, starting at time 0. *)
Definition same_problem {T : Type} {N : Num T} (d : @orbdynx T) (x0 : list T) (t1 : T) (c : @call T) : Prop :=
  k_terms c = od_terms d /\ k_args c = od_args d /\ k_event c = od_event d /\
  k_y0 c = x0 /\ k_t0 c = n_Z 0 /\ k_t1 c = t1.
(** The program makes exactly this call and its result is the integrator's. *)
Definition one_call {T : Type} (p : @prog T) (c : @call T) : Prop :=
  forall integ, run integ p = (integ c, [c]).

(** Calls that the integrator accepts: a constant step size needs a step; saving every step (or
    dense output) needs a bound on their number; the step has the sign of the interval. *)
Definition constant_step (c : @controller R) : Prop :=
  match c with ConstantStepSize => True | PIDController _ _ => False | OtherController a _ => a = false end.
Definition acceptable (c : @call R) : Prop :=
  (constant_step (k_controller c) -> k_dt0 c <> None) /\
  (sa_steps (k_saveat c) = true \/ sa_dense (k_saveat c) = true -> k_max_steps c <> None) /\
  (forall dt, k_dt0 c = Some dt -> 0 <= (k_t1 c - k_t0 c) * dt).

(** [s] lies between [a] and [b], in either order. *)
Definition between (a b s : R) : Prop := Rmin a b <= s <= Rmax a b.

(** Derivative of a list valued function, component by component. *)
Definition lderive (y : R -> list R) (s : R) (d : list R) : Prop :=
  List.length (y s) = List.length d /\
  forall i, (i < List.length d)%nat -> is_derive (fun t => nth i (y t) 0) s (nth i d 0).

(** [y] is a solution of the initial value problem in the call. *)
Definition solves (c : @call R) (y : R -> list R) : Prop :=
  y (k_t0 c) = k_y0 c /\
  forall s, between (k_t0 c) (k_t1 c) s -> exists d, k_terms c s (y s) (k_args c) = Ok d /\ lderive y s d.

(** The event function keeps its sign along [y]. *)
Definition silent (c : @call R) (y : R -> list R) : Prop :=
  match k_event c with
  | None => True
  | Some g => forall s, between (k_t0 c) (k_t1 c) s -> exists q, g s (y s) (k_args c) = Ok q /\ 0 < q
  end.

(** The times the caller asked for. *)
Definition times_asked (c : @call R) (ts : list R) : Prop :=
  let sa := k_saveat c in
  (sa_t0 sa = false -> sa_t1 sa = true -> sa_ts sa = None -> sa_steps sa = false -> ts = [k_t1 c]) /\
  (forall want, sa_t0 sa = false -> sa_t1 sa = false -> sa_ts sa = Some want -> sa_steps sa = false -> ts = want) /\
  (sa_t0 sa = true -> sa_steps sa = true -> sa_ts sa = None ->
     hd_error ts = Some (k_t0 c) /\ last ts (k_t0 c) = k_t1 c /\ forall s, In s ts -> between (k_t0 c) (k_t1 c) s).

Definition near (eps : R) (x y : list R) : Prop :=
  List.length x = List.length y /\ forall i, Rabs (nth i x 0 - nth i y 0) <= eps.

(** Whenever [y] solves the problem it is given, the integrator, if it returns, returns states within
    [eps] of [y] at the times asked for. *)
Definition follows (eps : R) (integ : @call R -> option (@solution R)) (y : R -> list R) : Prop :=
  forall (c : @call R) (s : @solution R),
    solves c y -> silent c y -> integ c = Some s ->
    times_asked c (sol_ts s) /\ Forall2 (fun t x => near eps x (y t)) (sol_ts s) (sol_ys s).

(** Six numbers. *)
Definition six (x : vec * vec) : list R :=
  [c0 (fst x); c1 (fst x); c2 (fst x); c0 (snd x); c1 (snd x); c2 (snd x)].

(** The settings in which the user's problem is the two-body problem through [(r 0, v 0)], and an
    event, if any, is the impact event of an orbit that passes the periapsis check. *)
Definition kepler_problem (mu : R) (r v : R -> vec) (d : @orbdynx R) (x0 : list R) : Prop :=
  od_terms d = point_mass_field /\ get "mu" (od_args d) = Some mu /\ x0 = six (r 0, v 0) /\
  (od_event d = None \/
   (od_event d = Some radius_islow /\ exists rmin rm, get "rmin" (od_args d) = Some rmin /\ rmin < rm /\
      rp_islower_rmin rm (r 0) (v 0) mu = false)).
