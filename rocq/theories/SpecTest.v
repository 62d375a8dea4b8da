(** What the user's convergence test should be given: a value, a vector and the norm of
    the residual of that pair for the user's matrices. *)
From Coq Require Import List Arith Bool.
From Verif Require Import Base ProjModel MatAlg VwxrModel SpecVwxr SpecMove ConvModel TestModel.
Import ListNotations.

Section SpecTest.
Context {K : Type} (o : scal K).

(** An operator on distributed vectors: linear, and reading only the rows the processes have. *)
Record operator (np : nat) (mV : nat -> nat) (A : @vect K -> @vect K) : Prop := Operator {
  op_local : forall x y, (forall p r, p < np -> r < mV p -> x p r = y p r) ->
             forall p r, p < np -> r < mV p -> A x p r = A y p r;
  op_linear : forall n (x : nat -> @vect K) (c : nat -> K) p r, p < np -> r < mV p ->
             A (fun q s => sum o n (fun l => kmul o (x l q s) (c l))) p r
             = sum o n (fun l => kmul o (A (x l) p r) (c l)) }.

(** The column a pointer points to. *)
Definition at_ptr (mem : nat -> @memory K) (x : ptr) : @vect K :=
  fun p r => mem p (Datatypes.fst x) (Datatypes.snd x) r.
(** The norm of A*x - value*B*x. *)
Definition residual_norm (sq : K -> K) (np : nat) (mV : nat -> nat) (A B : @vect K -> @vect K) (val : K) (x : @vect K) : K :=
  let r p s := ksub o (A x p s) (kmul o val (B x p s)) in sq (inner o np mV r r).
(** The norm shown is that of the value and the vector shown, as [norm_of] allows. *)
Definition fits (norm_of : K -> K -> Prop) (sq : K -> K) (np : nat) (mV : nat -> nat) (A B : @vect K -> @vect K)
    (mem : nat -> @memory K) (s : @shown K) : Prop :=
  exists x, sh_vec s = Some x /\ norm_of (sh_norm s) (residual_norm sq np mV A B (sh_val s) (at_ptr mem x)).
(** Arrays 1 and 2 hold the products with the first [n] vectors of array 0. *)
Definition holds_products (hasB : bool) (np : nat) (mV : nat -> nat) (A B : @vect K -> @vect K) (n : nat)
    (mem : nat -> @memory K) : Prop :=
  forall j p r, j < n -> p < np -> r < mV p ->
    mem p 1 j r = A (at_ptr mem (0, j)) p r /\ mem p (mass hasB) j r = B (at_ptr mem (0, j)) p r.
End SpecTest.
