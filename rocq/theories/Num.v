(** * Num: the arithmetic interface of the model.

    Every function of /repo/src/astrodynx is modelled ONCE, as Gallina code that
    is generic in a carrier [T] with the operations of [Num].  [Num] has
    operations only, no laws, so a theorem quantified over all [Num T] holds for
    whatever arithmetic the code runs on (float32, float64, NaN and infinities
    included).  Concrete instances used in the development:

    - [NumR.Num_R]    exact real arithmetic (Coq's [R]);
    - [NumX.Num_X]    exact reals extended with +inf, -inf and NaN, so that
                      division by zero and domain errors are visible;
    - [NumB32.Num_B32] IEEE-754 binary32 (Flocq), for an arbitrary libm; with the
                      libm of [LibmRef] it runs on the docstring examples
                      ([DocExamples], tests of the model only);
    - [NumD.Num_D]    pairs of a value and a derivative (forward-mode jax);
    - [Trace.Num_T]   numbers that may be unknown while jax traces;
    - [Nd.Num_nd]      arrays with shapes and broadcasting. *)

From Coq Require Import ZArith List.
Import ListNotations.

(** Operations of [jax.numpy] used by /repo/src/astrodynx. *)
Class Num (T : Type) : Type := {
  n_Z : Z -> T;                  (* integer literals: 1, 2, 6, 120, ... *)
  n_dec : Z -> positive -> T;    (* decimal literals p/q: 0.5, 1.875, 1e-6, ... *)
  n_pi : T;                      (* jnp.pi *)
  n_add : T -> T -> T;
  n_sub : T -> T -> T;
  n_mul : T -> T -> T;
  n_div : T -> T -> T;
  n_neg : T -> T;
  n_abs : T -> T;                (* jnp.abs *)
  n_sqrt : T -> T;               (* jnp.sqrt *)
  n_cbrt : T -> T;               (* jnp.cbrt *)
  n_sin : T -> T;
  n_cos : T -> T;
  n_sinh : T -> T;
  n_cosh : T -> T;
  n_log : T -> T;                (* jnp.log, natural logarithm *)
  n_arccos : T -> T;             (* jnp.arccos *)
  n_arctan2 : T -> T -> T;       (* jnp.arctan2(y, x) *)
  n_floor : T -> T;              (* jnp.floor *)
  n_max : T -> T -> T;           (* jnp.maximum *)
  n_lt : T -> T -> bool          (* x < y; false when an operand is NaN *)
}.

Declare Scope num_scope.
Delimit Scope num_scope with num.
Infix "+" := n_add : num_scope.
Infix "-" := n_sub : num_scope.
Infix "*" := n_mul : num_scope.
Infix "/" := n_div : num_scope.
Notation "- x" := (n_neg x) : num_scope.
Notation "# z" := (n_Z z%Z) (at level 1, z at level 0, format "# z") : num_scope.

Section Generic.
  Context {T : Type} {N : Num T}.
  Local Open Scope num_scope.

  (** [x ** n] for a literal integer exponent [n >= 1]: jax lowers it to
      [lax.integer_pow], which is square-and-multiply from the low bit. *)
  Definition mul_opt (acc : option T) (x : T) : T :=
    match acc with None => x | Some a => a * x end.

  Fixpoint npow_aux (acc : option T) (x : T) (y : positive) : T :=
    match y with
    | xH => mul_opt acc x
    | xO y' => npow_aux acc (x * x) y'
    | xI y' => npow_aux (Some (mul_opt acc x)) (x * x) y'
    end.

  Definition npow (x : T) (y : positive) : T := npow_aux None x y.

  (** [x > y] *)
  Definition n_gt (x y : T) : bool := n_lt y x.

  (** [jnp.where(b, x, y)] and [jax.lax.cond(b, lambda: x, lambda: y)] on a
      scalar predicate. *)
  Definition where_ {A : Type} (b : bool) (x y : A) : A := if b then x else y.
End Generic.

Infix "**" := npow (at level 30, right associativity) : num_scope.

(** ** 3-vectors and 3x3 matrices: one row of a [(..., 3)] jax array. *)

Record V3 (T : Type) : Type := mk3 { c0 : T; c1 : T; c2 : T }.
Arguments mk3 {T} _ _ _.
Arguments c0 {T} _.
Arguments c1 {T} _.
Arguments c2 {T} _.

Definition M3 (T : Type) : Type := V3 (V3 T).   (* rows *)

Section Vec.
  Context {T : Type} {N : Num T}.
  Local Open Scope num_scope.

  Definition vmap3 {A B : Type} (f : A -> B) (a : V3 A) : V3 B :=
    mk3 (f (c0 a)) (f (c1 a)) (f (c2 a)).
  Definition vzip3 {A B C : Type} (f : A -> B -> C) (a : V3 A) (b : V3 B) : V3 C :=
    mk3 (f (c0 a) (c0 b)) (f (c1 a) (c1 b)) (f (c2 a) (c2 b)).

  Definition vadd (a b : V3 T) : V3 T := vzip3 n_add a b.       (* a + b *)
  Definition vsub (a b : V3 T) : V3 T := vzip3 n_sub a b.       (* a - b *)
  Definition vscale (k : T) (a : V3 T) : V3 T := vmap3 (fun x => k * x) a.  (* k * a *)
  Definition vdivs (a : V3 T) (k : T) : V3 T := vmap3 (fun x => x / k) a.   (* a / k *)
  Definition vneg (a : V3 T) : V3 T := vmap3 n_neg a.           (* -a *)

  (** [jnp.sum(a * b, axis=-1)] and [jnp.inner(a, b)] (summation order: left to
      right; XLA does not promise an order). *)
  Definition vinner (a b : V3 T) : T :=
    c0 a * c0 b + c1 a * c1 b + c2 a * c2 b.

  (** [jnp.cross(a, b)] on 3-vectors. *)
  Definition vcross (a b : V3 T) : V3 T :=
    mk3 (c1 a * c2 b - c2 a * c1 b)
        (c2 a * c0 b - c0 a * c2 b)
        (c0 a * c1 b - c1 a * c0 b).

  (** [jnp.linalg.vector_norm(a)], ord = 2. *)
  Definition vector_norm (a : V3 T) : T := n_sqrt (vinner a a).

  (** [jnp.outer(a, b)], [jnp.eye(3)], elementwise matrix operations, [A @ B],
      [A @ v]. *)
  Definition outer (a b : V3 T) : M3 T := vmap3 (fun x => vscale x b) a.
  Definition eye3 : M3 T :=
    mk3 (mk3 #1 #0 #0) (mk3 #0 #1 #0) (mk3 #0 #0 #1).
  Definition madd (A B : M3 T) : M3 T := vzip3 vadd A B.
  Definition msub (A B : M3 T) : M3 T := vzip3 vsub A B.
  Definition mscale (k : T) (A : M3 T) : M3 T := vmap3 (vscale k) A.
  Definition mdivs (A : M3 T) (k : T) : M3 T := vmap3 (fun row => vdivs row k) A.
  Definition mneg (A : M3 T) : M3 T := vmap3 vneg A.
  Definition mcol (f : forall A, V3 A -> A) (B : M3 T) : V3 T :=
    vmap3 (fun row => f T row) B.
  Definition mmul (A B : M3 T) : M3 T :=
    vmap3 (fun row => mk3 (vinner row (mcol (@c0) B))
                          (vinner row (mcol (@c1) B))
                          (vinner row (mcol (@c2) B))) A.
  Definition mvec (A : M3 T) (v : V3 T) : V3 T := vmap3 (fun row => vinner row v) A.
End Vec.

(** ** [jax.lax.while_loop] *)

(** Big-step meaning of [jax.lax.while_loop(cond, body, s)]: it returns [s'].
    No derivation exists when the loop diverges. *)
Inductive While {S : Type} (cond : S -> bool) (body : S -> S) : S -> S -> Prop :=
| While_stop : forall s, cond s = false -> While cond body s s
| While_step : forall s s', cond s = true -> While cond body (body s) s' ->
                            While cond body s s'.

(** The same as a function on explicit fuel; [None] = fuel exhausted. *)
Fixpoint while_fuel {S : Type} (fuel : nat) (cond : S -> bool) (body : S -> S) (s : S)
  : option S :=
  match fuel with
  | O => None
  | Datatypes.S fuel' =>
      if cond s then while_fuel fuel' cond body (body s) else Some s
  end.

(** [jax.vmap] of a [while_loop]: all lanes advance together while some lane
    wants to continue; a finished lane keeps its value ([lax.select] in the
    batching rule of [while_loop]).  A lane state carries its own batched
    arguments, so [cond] and [body] are shared by all lanes. *)
Definition vstep {S : Type} (cond : S -> bool) (body : S -> S) (ss : list S) : list S :=
  map (fun s => if cond s then body s else s) ss.

Fixpoint vwhile_fuel {S : Type} (fuel : nat) (cond : S -> bool) (body : S -> S)
  (ss : list S) : option (list S) :=
  match fuel with
  | O => None
  | Datatypes.S fuel' =>
      if existsb cond ss then vwhile_fuel fuel' cond body (vstep cond body ss)
      else Some ss
  end.
