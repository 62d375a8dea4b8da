(** Specification of a restart with locking: what the basis, the block and the
    matrices must hold afterwards, independent of how the columns are moved. *)
From Coq Require Import List Arith Bool.
From Verif Require Import Base ProjModel MatAlg.
Import ListNotations.

Section SpecMove.
Context {K : Type} (o : scal K).

(** Vectors of a process: array, column, row; arrays 0 V, 1 A*V, 2 B*V, 3 evecs. *)
Definition store := nat -> nat -> nat -> K.
(** The array against which residuals are taken: B*V, or V without a mass matrix. *)
Definition mass (hasB : bool) : nat := if hasB then 2 else 0.
Definition in_basis (hasB : bool) (a : nat) : bool :=
  (a =? 0) || (a =? 1) || (hasB && (a =? 2)).

(** Column [c] of the block is the pair at column [e] of the basis, with its residual. *)
Definition block_is (hasB : bool) (m : nat) (vals : nat -> K) (s : store) (c e : nat) : Prop :=
  forall r, r < m ->
    s 0 c r = s 0 e r /\
    s 1 c r = ksub o (s 1 e r) (kmul o (vals e) (s (mass hasB) e r)) /\
    (hasB = true -> s 2 c r = s 2 e r).

(** Column [c'] of [s'] is column [c] of [s] in every array of the basis. *)
Definition same_pair (hasB : bool) (m : nat) (s' : store) (c' : nat) (s : store) (c : nat) : Prop :=
  forall a r, r < m -> in_basis hasB a = true -> s' a c' r = s a c r.

(** A vector over several processes: process, row. *)
Definition vect := nat -> nat -> K.
(** A form reads only the rows the processes have. *)
Definition local_form (np : nat) (m : nat -> nat) (f : vect -> vect -> K) : Prop :=
  forall x x' y y', (forall p r, p < np -> r < m p -> x p r = x' p r) ->
    (forall p r, p < np -> r < m p -> y p r = y' p r) -> f x y = f x' y'.
(** Column [i] of the locked vectors followed by the basis; [nl] vectors are locked. *)
Definition joint (nl : nat) (s : nat -> store) (i : nat) : vect :=
  fun p r => if i <? nl then s p 3 i r else s p 0 (i - nl) r.
Definition basis_col (s : nat -> store) (i : nat) : vect := fun p r => s p 0 i r.
End SpecMove.
