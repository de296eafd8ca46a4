(** * Nd: multi-dimensional arrays with the broadcasting rules of [jax.numpy]

    The other model files describe one row of a batch.  Here the arrays themselves are modelled, so
    that shape errors and broadcasting are visible.

    Convention: [dims] lists the axes from the innermost outwards, so that [axis=-1] is the head of
    the list and a numpy shape (2, 5, 3) is [[3; 5; 2]]; indices are listed in the same order.
    An operation on incompatible shapes raises: [None].  Elements outside the bounds are irrelevant. *)
From Coq Require Import ZArith List Bool Arith.
Import ListNotations.
From Verif Require Import Num.

Record arr (T : Type) : Type := mkArr { dims : list nat; at_ : list nat -> T }.
Arguments mkArr {T} _ _.
Arguments dims {T} _.
Arguments at_ {T} _ _.

(** An array or an exception. *)
Definition nd (T : Type) : Type := option (arr T).

(** [jnp.broadcast_shapes] *)
Definition bcast1 (a b : nat) : option nat :=
  if a =? b then Some a else if a =? 1 then Some b else if b =? 1 then Some a else None.
Fixpoint bcast (s t : list nat) : option (list nat) :=
  match s, t with
  | [], _ => Some t
  | _, [] => Some s
  | a :: s', b :: t' =>
      match bcast1 a b, bcast s' t' with
      | Some c, Some u => Some (c :: u)
      | _, _ => None
      end
  end.

(** The element of an array with axes [s] that is read at index [i] of an array it is broadcast to:
    missing axes are dropped, axes of length 1 are read at 0. *)
Fixpoint pick (s i : list nat) : list nat :=
  match s with
  | [] => []
  | a :: s' => (if a =? 1 then 0 else hd 0 i) :: pick s' (tl i)
  end.
Definition read {T : Type} (a : arr T) (i : list nat) : T := at_ a (pick (dims a) i).

Definition obind {A B : Type} (x : option A) (f : A -> option B) : option B :=
  match x with Some a => f a | None => None end.
Notation "'let?' x := e 'in' k" := (obind e (fun x => k)) (at level 200, x name, right associativity).

Section Ops.
  Context {A B C : Type}.
  (** Elementwise operations. *)
  Definition scalar (c : A) : nd A := Some (mkArr [] (fun _ => c)).
  Definition lift1 (f : A -> B) (x : nd A) : nd B :=
    let? a := x in Some (mkArr (dims a) (fun i => f (at_ a i))).
  Definition lift2 (f : A -> B -> C) (x : nd A) (y : nd B) : nd C :=
    let? a := x in let? b := y in let? s := bcast (dims a) (dims b) in
    Some (mkArr s (fun i => f (read a i) (read b i))).
End Ops.

(** [jnp.where(c, x, y)] *)
Definition nd_where {T : Type} (c : nd bool) (x y : nd T) : nd T :=
  lift2 (fun (b : bool) (p : T * T) => if b then fst p else snd p) c (lift2 (fun p q => (p, q)) x y).

(** [jnp.expand_dims(x, axis=-1)], [jnp.squeeze(x, axis=-1)] *)
Definition expand_last {T : Type} (x : nd T) : nd T :=
  let? a := x in Some (mkArr (1 :: dims a) (fun i => at_ a (tl i))).
Definition squeeze_last {T : Type} (x : nd T) : nd T :=
  let? a := x in
  match dims a with
  | 1 :: s => Some (mkArr s (fun i => at_ a (0 :: i)))
  | _ => None
  end.

(** [x[..., k:k+1]] (python clamps slices: an axis of length at most [k] becomes empty) *)
Definition slice_last {T : Type} (k : nat) (x : nd T) : nd T :=
  let? a := x in
  match dims a with
  | n :: s => Some (mkArr ((if k <? n then 1 else 0) :: s) (fun i => at_ a ((k + hd 0 i) :: tl i)))
  | [] => None
  end.

(** [jnp.stack([x, y, z], axis=-1)] and [axis=-2]: the shapes must be equal. *)
Definition same_dims (s t : list nat) : bool := if list_eq_dec Nat.eq_dec s t then true else false.
Definition sel3 {T : Type} (k : nat) (x y z : T) : T :=
  match k with 0 => x | 1 => y | _ => z end.
Definition stack3 {T : Type} (x y z : nd T) : nd T :=
  let? a := x in let? b := y in let? c := z in
  if same_dims (dims a) (dims b) && same_dims (dims a) (dims c)
  then Some (mkArr (3 :: dims a) (fun i => at_ (sel3 (hd 0 i) a b c) (tl i)))
  else None.
Definition stack3_2 {T : Type} (x y z : nd T) : nd T :=
  let? a := x in let? b := y in let? c := z in
  if same_dims (dims a) (dims b) && same_dims (dims a) (dims c)
  then match dims a with
       | n :: s => Some (mkArr (n :: 3 :: s)
                     (fun i => at_ (sel3 (hd 0 (tl i)) a b c) (hd 0 i :: tl (tl i))))
       | [] => None
       end
  else None.

Section NumOps.
  Context {T : Type} {N : Num T}.
  Local Open Scope num_scope.

  (** The arithmetic interface for arrays: with it the elementwise formulas of the model are also
      their array versions.  [n_lt] is python's [x < y] used as a condition, which needs scalars;
      no formula used with this instance compares. *)
  Definition Num_nd : Num (nd T) := {|
    n_Z := fun z => scalar (n_Z z);
    n_dec := fun p q => scalar (n_dec p q);
    n_pi := scalar n_pi;
    n_add := lift2 n_add; n_sub := lift2 n_sub; n_mul := lift2 n_mul; n_div := lift2 n_div;
    n_neg := lift1 n_neg; n_abs := lift1 n_abs; n_sqrt := lift1 n_sqrt; n_cbrt := lift1 n_cbrt;
    n_sin := lift1 n_sin; n_cos := lift1 n_cos; n_sinh := lift1 n_sinh; n_cosh := lift1 n_cosh;
    n_log := lift1 n_log; n_arccos := lift1 n_arccos; n_arctan2 := lift2 n_arctan2;
    n_floor := lift1 n_floor; n_max := lift2 n_max;
    n_lt := fun x y => match x, y with
                       | Some a, Some b => n_lt (at_ a []) (at_ b [])
                       | _, _ => false
                       end |}.

  (** Elementwise comparison. *)
  Definition nd_lt (x y : nd T) : nd bool := lift2 n_lt x y.

  (** [jnp.zeros_like], [jnp.ones_like] *)
  Definition full_like (c : T) (x : nd T) : nd T := lift1 (fun _ => c) x.

  (** [jnp.sum(x, axis=-1, keepdims=True)], left to right *)
  Fixpoint sum_from (acc : T) (f : nat -> T) (k n : nat) : T :=
    match n with
    | 0 => acc
    | S n' => sum_from (acc + f k) f (S k) n'
    end.
  Definition sum_n (f : nat -> T) (n : nat) : T :=
    match n with 0 => #0 | S n' => sum_from (f 0) f 1 n' end.
  Definition sum_last (x : nd T) : nd T :=
    let? a := x in
    match dims a with
    | n :: s => Some (mkArr (1 :: s) (fun i => sum_n (fun k => at_ a (k :: tl i)) n))
    | [] => None
    end.
  (** [jnp.linalg.vector_norm(x, axis=-1, keepdims=True)] *)
  Definition norm_last (x : nd T) : nd T := lift1 n_sqrt (sum_last (lift2 n_mul x x)).

  (** The 3-vector on the last axis. *)
  Definition vec_at (a : arr T) (i : list nat) : V3 T :=
    mk3 (at_ a (0 :: i)) (at_ a (1 :: i)) (at_ a (2 :: i)).
  Definition comp (k : nat) (v : V3 T) : T := sel3 k (c0 v) (c1 v) (c2 v).

  (** [jnp.cross(x, y)].  Simplification: both last axes must have length 3 (jax also takes 2). *)
  Definition cross_nd (x y : nd T) : nd T :=
    let? a := x in let? b := y in
    match dims a, dims b with
    | 3 :: s, 3 :: t =>
        let? u := bcast s t in
        Some (mkArr (3 :: u) (fun i =>
          comp (hd 0 i) (vcross (vec_at a (pick s (tl i))) (vec_at b (pick t (tl i))))))
    | _, _ => None
    end.

  (** [x @ y] for arrays with at least two axes. *)
  Definition matmul (x y : nd T) : nd T :=
    let? a := x in let? b := y in
    match dims a, dims b with
    | k :: m :: s, n :: k' :: t =>
        if k =? k' then
          let? u := bcast s t in
          Some (mkArr (n :: m :: u) (fun i =>
            let j := tl (tl i) in
            sum_n (fun l => at_ a (l :: hd 0 (tl i) :: pick s j) * at_ b (hd 0 i :: l :: pick t j)) k))
        else None
    | _, _ => None
    end.

  (** [jax.lax.cond(p, lambda: x, lambda: y)]: the predicate is a scalar, both branches are traced
      and must have the same shape. *)
  Definition lax_cond {A : Type} (p : nd bool) (x y : nd A) : nd A :=
    let? c := p in let? a := x in let? b := y in
    match dims c with
    | [] => if same_dims (dims a) (dims b) then Some (if at_ c [] then a else b) else None
    | _ => None
    end.
End NumOps.
