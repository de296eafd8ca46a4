(** * SpecNd: what broadcasting promises

    As in [Nd], axes and indices are listed from the innermost outwards. *)
From Coq Require Import List Arith.
Import ListNotations.
From Verif Require Import Num Nd.

(** [s] can be broadcast to [S]. *)
Fixpoint fits (s S : list nat) : Prop :=
  match s, S with
  | [], _ => True
  | a :: s', b :: S' => (a = b \/ a = 1) /\ fits s' S'
  | _ :: _, [] => False
  end.

(** The shapes are broadcast-compatible; [S] is their common shape. *)
Definition compatible (ss : list (list nat)) : Prop := exists S, forall s, In s ss -> fits s S.
Definition common (ss : list (list nat)) (S : list nat) : Prop :=
  (forall s, In s ss -> fits s S) /\ forall S', (forall s, In s ss -> fits s S') -> fits S S'.

(** [i] is an index of an array with axes [s]. *)
Definition inb (s i : list nat) : Prop := Forall2 (fun n k => k < n) s i.

(** [r] is the elementwise application of [f] to the arrays [xs], with broadcasting: it raises
    exactly if the shapes are not compatible. *)
Definition elementwise {T : Type} (xs : list (arr T)) (r : nd T) (f : (arr T -> T) -> T) : Prop :=
  match r with
  | Some o => common (map dims xs) (dims o) /\ forall i, inb (dims o) i -> at_ o i = f (fun a => read a i)
  | None => ~ compatible (map dims xs)
  end.

(** A batch of 3-vectors, numpy shape (..., 3): its batch axes and its rows. *)
Definition vectors {T : Type} (a : arr T) (s : list nat) : Prop := dims a = 3 :: s.
Definition row {T : Type} (a : arr T) (i : list nat) : V3 T :=
  mk3 (read a (0 :: i)) (read a (1 :: i)) (read a (2 :: i)).
(** A scalar, or a column of numpy shape (..., 1): its batch axes and its elements. *)
Definition column {T : Type} (a : arr T) (s : list nat) : Prop := dims a = 1 :: s \/ (dims a = [] /\ s = []).
Definition cell {T : Type} (a : arr T) (i : list nat) : T := read a (0 :: i).
(** A batch of 3x3 matrices, numpy shape (..., 3, 3): axes and matrices. *)
Definition matrices {T : Type} (a : arr T) (s : list nat) : Prop := dims a = 3 :: 3 :: s.
Definition matrix {T : Type} (a : arr T) (i : list nat) : M3 T :=
  let e k l := read a (l :: k :: i) in
  mk3 (mk3 (e 0 0) (e 0 1) (e 0 2)) (mk3 (e 1 0) (e 1 1) (e 1 2)) (mk3 (e 2 0) (e 2 1) (e 2 2)).

(** The entry in row [k] and column [l] of a matrix. *)
Definition ent {T : Type} (k l : nat) (A : M3 T) : T := sel3 l (sel3 k (c0 (c0 A)) (c0 (c1 A)) (c0 (c2 A)))
  (sel3 k (c1 (c0 A)) (c1 (c1 A)) (c1 (c2 A))) (sel3 k (c2 (c0 A)) (c2 (c1 A)) (c2 (c2 A))).
(** Shorthands for concrete arrays: a number, a list, a list of rows. *)
Definition num {T : Type} (x : T) : arr T := mkArr [] (fun _ => x).
Definition list1 {T : Type} (d : T) (l : list T) : arr T := mkArr [length l] (fun i => nth (hd 0 i) l d).
Definition list2 {T : Type} (d : T) (n : nat) (l : list (list T)) : arr T :=
  mkArr [n; length l] (fun i => nth (hd 0 i) (nth (hd 0 (tl i)) l []) d).
