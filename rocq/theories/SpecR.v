(** What the functions eigs_sym and svds of the R package promise, independently of their
    code: products with a matrix, and the vectors of a result. *)
From Coq Require Import List.
Import ListNotations.

Section Products.
Context {K : Type}.
Variables (kzero : K) (kadd kmul : K -> K -> K) (cj : K -> K).

(** [y] is the product of the matrix [a] of [rows] rows and [cols] columns with [x]. *)
Definition is_product (rows cols : nat) (a : nat -> nat -> K) (x y : list K) : Prop :=
  length y = rows /\
  forall i, i < rows ->
    nth i y kzero = fold_left (fun s j => kadd s (kmul (a i j) (nth j x kzero))) (seq 0 cols) kzero.

(** the conjugate transpose *)
Definition adjoint (a : nat -> nat -> K) : nat -> nat -> K := fun i j => cj (a j i).
(** the transpose *)
Definition flipped (a : nat -> nat -> K) : nat -> nat -> K := fun i j => a j i.

(** a Hermitian matrix of order [n] *)
Definition hermitian (n : nat) (a : nat -> nat -> K) : Prop :=
  forall i j, i < n -> j < n -> a i j = cj (a j i).
End Products.

(** The targets documented for eigs_sym: what to look for, and around which points.  [t] is one
    of the names of the C interface. *)
Inductive looks_for := Largest | LargestMagnitude | Smallest | ClosestAbove | ClosestBelow | Closest.
