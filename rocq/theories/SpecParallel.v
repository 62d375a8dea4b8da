(** What the user's collective callbacks promise.  Independent of the model. *)
From Coq Require Import ZArith List Permutation.
Import ListNotations.

(** [reduction add l a]: [a] is a sum of all the elements of [l], taken in any
    order and with any bracketing (as a reduction over processes may do). *)
Inductive reduction {A} (add : A -> A -> A) : list A -> A -> Prop :=
| red_one : forall x, reduction add [x] x
| red_join : forall l1 l2 a b, reduction add l1 a -> reduction add l2 b ->
    reduction add (l1 ++ l2) (add a b)
| red_order : forall l l' a, Permutation l l' -> reduction add l a -> reduction add l' a.

(** A buffer of sums: entry k is a reduction of the entries k of all buffers. *)
Definition sums {A} (add : A -> A -> A) (d : A) (bufs : list (list A)) (out : list A) : Prop :=
  (forall b, In b bufs -> length b = length out) /\
  forall k, k < length out -> reduction add (map (fun b => nth k b d) bufs) (nth k out d).
