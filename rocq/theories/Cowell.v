(** * Model of /repo/src/astrodynx/prop/_cowell_method.py

    The numerical integrator ([diffeq.diffeqsolve], re-exported from diffrax by
    /repo/src/astrodynx/diffeq/__init__.py:1-13) is not part of the code: a
    wrapper is a program that may call it, and [run] executes the program with any
    integrator, logging the calls.  Parameters with a python default are
    [option]s; [None] means "not given". *)
From Coq Require Import ZArith List String.
Import ListNotations.
From Verif Require Import Num Gravity.
Local Open Scope string_scope.

Section Cowell.
  Context {T : Type} {N : Num T}.

  (** [diffeq.ODETerm(f)] is modelled by [f], [diffeq.Event(g)] by [g]. *)
  Definition field : Type := T -> list T -> dict (T := T) -> res (list T).
  Definition event_fn : Type := T -> list T -> dict (T := T) -> res T.

  (** Solvers and step size controllers, as far as the wrappers name them.
      Simplification: user supplied ones are a name, [adaptive] or not. *)
  Inductive solver : Type := Tsit5 | OtherSolver (name : string).
  Inductive controller : Type :=
  | ConstantStepSize
  | PIDController (rtol atol : T)
  | OtherController (adaptive : bool) (name : string).

  (** [diffeq.SaveAt(t0=, t1=, ts=, steps=, dense=)].  [SaveAt(subs=SubSaveAt(...))]
      is the same as [SaveAt(...)]. *)
  Record saveat : Type := mkSave {
    sa_t0 : bool; sa_t1 : bool; sa_ts : option (list T); sa_steps : bool; sa_dense : bool }.

  (* _cowell_method.py:8-62, the NamedTuple and its defaults (:61-62) *)
  Record orbdynx : Type := mkOrb {
    od_terms : field; od_args : dict (T := T); od_event : option event_fn }.
  Definition given {A : Type} (o : option A) (default : A) : A :=
    match o with Some a => a | None => default end.
  Definition OrbDynx (terms : field) (args : option (dict (T := T)))
    (event : option (option event_fn)) : orbdynx :=
    mkOrb terms (given args [("mu", n_dec 1 1)]) (given event None).

  (** The keyword arguments of one call of [diffeqsolve]. *)
  Record call : Type := mkCall {
    k_terms : field; k_solver : solver; k_t0 : T; k_t1 : T; k_dt0 : option T;
    k_y0 : list T; k_args : dict (T := T); k_max_steps : option Z;
    k_controller : controller; k_saveat : saveat; k_event : option event_fn }.

  (** [diffeq.Solution], restricted to the saved times and states. *)
  Record solution : Type := mkSol { sol_ts : list T; sol_ys : list (list T) }.

  Inductive prog : Type :=
  | Ret (s : solution)
  | Solve (c : call) (k : solution -> prog).

  (** [None]: the integrator raised an exception, which the wrappers let pass. *)
  Fixpoint run (integ : call -> option solution) (p : prog) : option solution * list call :=
    match p with
    | Ret s => (Some s, [])
    | Solve c k =>
        match integ c with
        | None => (None, [c])
        | Some s => let '(x, l) := run integ (k s) in (x, c :: l)
        end
    end.

  (* _cowell_method.py:72-74, :155, :234-237, :333-336, :415-418 *)
  Definition default_solver : solver := Tsit5.
  Definition default_controller : controller := PIDController (n_dec 1 100000000) (n_dec 1 100000000).

  (* _cowell_method.py:65-145 *)
  Definition cowell_method (orbdyn : orbdynx) (x0 : list T) (t1 : T) (sa : saveat)
    (dt0 : option (option T)) (max_steps : option (option Z)) (sv : option solver)
    (sc : option controller) : prog :=
    Solve {| k_terms := od_terms orbdyn; k_solver := given sv default_solver;
             k_t0 := n_Z 0; k_t1 := t1; k_dt0 := given dt0 None; k_y0 := x0;
             k_args := od_args orbdyn; k_max_steps := given max_steps (Some 4096%Z);
             k_controller := given sc default_controller; k_saveat := sa;
             k_event := od_event orbdyn |} Ret.

  (* _cowell_method.py:148-223 *)
  Definition fixed_steps (orbdyn : orbdynx) (x0 : list T) (t1 dt : T)
    (max_steps : option (option Z)) (sv : option solver) : prog :=
    Solve {| k_terms := od_terms orbdyn; k_solver := given sv default_solver;
             k_t0 := n_Z 0; k_t1 := t1; k_dt0 := Some dt; k_y0 := x0;
             k_args := od_args orbdyn; k_max_steps := given max_steps (Some 4096%Z);
             k_controller := ConstantStepSize;
             k_saveat := mkSave true false None true false;
             k_event := od_event orbdyn |} Ret.

  (* _cowell_method.py:226-324 *)
  Definition adaptive_steps (orbdyn : orbdynx) (x0 : list T) (t1 : T)
    (max_steps : option (option Z)) (sv : option solver) (sc : option controller) : prog :=
    Solve {| k_terms := od_terms orbdyn; k_solver := given sv default_solver;
             k_t0 := n_Z 0; k_t1 := t1; k_dt0 := None; k_y0 := x0;
             k_args := od_args orbdyn; k_max_steps := given max_steps (Some 4096%Z);
             k_controller := given sc default_controller;
             k_saveat := mkSave true false None true false;
             k_event := od_event orbdyn |} Ret.

  (* _cowell_method.py:327-408 *)
  Definition custom_steps (orbdyn : orbdynx) (x0 : list T) (t1 : T) (ts : list T)
    (sv : option solver) (sc : option controller) : prog :=
    Solve {| k_terms := od_terms orbdyn; k_solver := given sv default_solver;
             k_t0 := n_Z 0; k_t1 := t1; k_dt0 := None; k_y0 := x0;
             k_args := od_args orbdyn; k_max_steps := None;
             k_controller := given sc default_controller;
             k_saveat := mkSave false false (Some ts) false false;
             k_event := od_event orbdyn |} Ret.

  (* _cowell_method.py:411-489 *)
  Definition to_final (orbdyn : orbdynx) (x0 : list T) (t1 : T)
    (sv : option solver) (sc : option controller) : prog :=
    Solve {| k_terms := od_terms orbdyn; k_solver := given sv default_solver;
             k_t0 := n_Z 0; k_t1 := t1; k_dt0 := None; k_y0 := x0;
             k_args := od_args orbdyn; k_max_steps := Some 4096%Z;
             k_controller := given sc default_controller;
             k_saveat := mkSave false true None false false;
             k_event := od_event orbdyn |} Ret.

  (** The vector field of the docstrings and of docs/basics.rst:121-123:
      [jnp.concatenate([x[3:], point_mass_grav(t, x, args)])], and the same with a
      perturbation added (docs/basics.rst:224-231, _cowell_method.py:44-48). *)
  Definition point_mass_field : field := fun t x args =>
    do acc <- point_mass_grav t x args ;;
    Ok (skipn 3 x ++ [c0 acc; c1 acc; c2 acc])%list.
  Definition j2_field : field := fun t x args =>
    do acc <- point_mass_grav t x args ;;
    do acc2 <- j2_acc t x args ;;
    let a := vadd acc acc2 in
    Ok (skipn 3 x ++ [c0 a; c1 a; c2 a])%list.
End Cowell.
