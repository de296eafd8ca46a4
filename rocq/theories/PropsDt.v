(** * Properties C69, C70: which dtypes the universal functions, the solvers and the propagator accept

    Theorems only; proofs are in [DtFacts].  The first argument of a model function is [jax_enable_x64]
    ([false] by default).  [pick] is the part of jax's behaviour that is left open (whether the result of
    [lax.cond] and [lax.while_loop] is weakly typed); the theorems hold for every choice. *)
From Coq Require Import Bool List String.
From Verif Require Import Dt DtModel SpecDt DtFacts.
Import ListNotations.

(** ** C69: the universal functions accept integers and mixed widths *)

(** By default ([x64] off) U2 to U5 accept everything, U0 and U1 exactly the floats. *)
Theorem C69_default : forall pick, picks pick -> forall chi alpha : dt,
  exists_in false chi = true -> exists_in false alpha = true ->
  (accepted (d_ufunc0 false pick chi alpha) = is_float chi /\ accepted (d_ufunc1 false pick chi alpha) = is_float chi) /\
  gives false (d_ufunc2 false pick chi alpha) Float32 /\ gives false (d_ufunc3 false pick chi alpha) Float32 /\
  gives false (d_ufunc4 false pick chi alpha) Float32 /\ gives false (d_ufunc5 false pick chi alpha) Float32.
Proof. exact default_ufuncs. Qed.
Print Assumptions C69_default.

(** With x64 the exact table. *)
Theorem C69_x64 : forall pick, picks pick -> forall chi alpha : dt,
  let ok := match chi with Float32 => negb (wide alpha) | Float64 => true | _ => negb (narrow alpha) end in
  let ok' := match chi with Int32 => narrow alpha | _ => ok end in
  (accepted (d_ufunc0 true pick chi alpha) = is_float chi && ok /\
   accepted (d_ufunc1 true pick chi alpha) = is_float chi && ok) /\
  accepted (d_ufunc2 true pick chi alpha) = ok' /\ accepted (d_ufunc3 true pick chi alpha) = ok' /\
  accepted (d_ufunc4 true pick chi alpha) = ok' /\ accepted (d_ufunc5 true pick chi alpha) = ok'.
Proof. exact x64_ufuncs. Qed.
Print Assumptions C69_x64.

(** The claim "every numeric argument that exists is accepted" fails for every integer [chi] and whatever
    alpha is, in both modes. *)
Theorem C69_integers_refuted : forall pick, picks pick -> forall (x64 : bool) (chi alpha : dt),
  is_float chi = false -> exists_in x64 chi = true -> exists_in x64 alpha = true ->
  accepted (d_ufunc0 x64 pick chi alpha) = false /\ accepted (d_ufunc1 x64 pick chi alpha) = false.
Proof. exact integers_rejected. Qed.
Print Assumptions C69_integers_refuted.

Example C69_one_rejected : forall pick, picks pick ->
  d_ufunc1 false pick IntW FloatW = TypeError "cond branches must have equal output types".
Proof. intros pick P. picked P; reflexivity. Qed.

Example C69_one_accepted : forall pick, picks pick -> gives false (d_ufunc2 false pick IntW FloatW) Float32.
Proof. intros pick P. apply default_ufuncs; auto. Qed.

(** ** C70: kepler and the solvers accept mixed dtypes *)

(** by default every numeric input gives a float32 position *)
Theorem C70_default : forall pick, picks pick -> forall ts r v mu : dt,
  Forall (fun d => wide d = false) [ts; r; v; mu] -> gives false (d_kepler false pick ts r v mu) Float32.
Proof. exact default_kepler. Qed.
Print Assumptions C70_default.

(** with x64, Python numbers and 64 bit arrays give a float64 position *)
Theorem C70_x64 : forall pick, picks pick -> forall ts r v mu : dt,
  Forall (fun d => narrow d = false) [ts; r; v; mu] -> gives true (d_kepler true pick ts r v mu) Float64.
Proof. exact x64_all_wide. Qed.
Print Assumptions C70_x64.

(** with x64 and a Python number for [mu], exactly these are accepted *)
Theorem C70_x64_mixed : forall pick, picks pick -> forall ts r v mu : dt, weak mu = true ->
  accepted (d_kepler true pick ts r v mu) =
  match ts with
  | Float32 => negb (wide r || wide v)
  | Float64 => true
  | _ => negb (narrow r || narrow v) || wide r || wide v
  end.
Proof. exact x64_kepler. Qed.
Print Assumptions C70_x64_mixed.

Theorem C70_refuted : forall pick, picks pick -> forall mu : dt, weak mu = true ->
  accepted (d_kepler true pick Float32 Float64 Float64 mu) = false /\
  accepted (d_kepler true pick FloatW Float32 Float32 mu) = false /\
  accepted (d_kepler true pick Int32 Float32 Float32 mu) = false /\
  accepted (d_kepler true pick Float32 Float32 Float32 mu) = true /\
  accepted (d_kepler true pick Float64 Float32 Float32 mu) = true.
Proof. exact kepler_mixed_rejected. Qed.
Print Assumptions C70_refuted.

(** the elliptic and the hyperbolic solver accept every pair of dtypes, in both modes, with a Python tolerance *)
Theorem C70_solvers : forall pick, picks pick -> forall (x64 : bool) (M e tol : dt), weak tol = true ->
  Forall (fun d => exists_in x64 d = true) [M; e] ->
  (exists d, d_solve_elps x64 pick M e tol = Typed d /\ is_float d = true) /\
  (exists d, d_solve_hypb x64 pick M e tol = Typed d /\ is_float d = true).
Proof. exact solvers_any. Qed.
Print Assumptions C70_solvers.

(** An array as tolerance is another matter: a float64 [tol] with float32 data is a type error. *)
Theorem C70_array_tol_refuted : forall pick, picks pick ->
  accepted (d_solve_elps true pick Float32 Float32 Float64) = false /\
  accepted (d_solve_hypb true pick Float32 Float32 Float64) = false /\
  accepted (d_solve_elps true pick Float64 Float64 Float32) = true /\
  accepted (d_solve_hypb true pick Float64 Float64 Float32) = true.
Proof. exact array_tol. Qed.
Print Assumptions C70_array_tol_refuted.

Example C70_integers : forall pick, picks pick -> gives false (d_kepler false pick IntW Int32 Int32 IntW) Float32.
Proof. intros pick P. apply default_kepler; [exact P | repeat constructor]. Qed.

Example C70_float64 : forall pick, picks pick -> gives true (d_kepler true pick Float64 Float64 Float64 FloatW) Float64.
Proof. intros pick P. apply x64_all_wide; [exact P | repeat constructor]. Qed.
