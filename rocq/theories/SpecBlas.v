(** What the operations on blocks of vectors should compute, in terms of matrices
    (MatAlg) and of the elements of the arrays. *)
From Coq Require Import List Arith Bool.
From Verif Require Import Base ProjModel SpecProj MatAlg BlasModel.

Section SpecBlas.
Context {K : Type} (o : scal K).

(** The matrix stored by columns from the pointer [a] on. *)
Definition stored (a : nat -> K) (ld : nat) : mx := fun i j => a (j * ld + i).
(** op(A): A, its transpose or its conjugate transpose. *)
Definition op (t : trans) (A : mx) : mx :=
  match t with trN => A | trT => fun i j => A j i | trC => adj o A end.

(** C' = alpha P + beta C on the m x n block stored in c with leading dimension ldc,
    the old elements converted by [pre] and the new ones by [post]; the rest of
    memory is as before. *)
Definition updated (m n : nat) (pre post : K -> K) (alpha : K) (P : mx) (beta : K) (c : nat -> K) (ldc : nat)
    (c' : nat -> K) : Prop :=
  (forall i j, i < m -> j < n ->
     c' (j * ldc + i) = post (kadd o (kmul o alpha (P i j)) (kmul o beta (pre (c (j * ldc + i)))))) /\
  (forall q, (forall i j, i < m -> j < n -> q <> j * ldc + i) -> c' q = c q).

(** The vector of n elements x[0], x[inc], ... as a column. *)
Definition strided (x : nat -> K) (inc : nat) : mx := fun i _ => x (i * inc).

(** In the build for real numbers the conjugation does nothing. *)
Definition real_build (cplx : bool) : Prop := cplx = false -> forall a, kconj o a = a.
(** With one type for vectors and small matrices no conversion is made; with two
    types the one of the small matrices represents all numbers of the other. *)
Definition conversions (same : bool) (up down : K -> K) : Prop :=
  (same = true -> (forall a, up a = a) /\ (forall a, down a = a)) /\
  (forall a, down (up a) = a).
Definition converted (up : K -> K) (A : mx) : mx := fun i j => up (A i j).
Definition same_as (a : K) : K := a.

(** The inner products of the columns of X and Y, whose rows are spread over np
    processes, process p having the first nl p rows of its arrays. *)
Definition inner_products (np : nat) (nl : nat -> nat) (X Y : nat -> mx) : mx :=
  fun i j => sum o np (fun p => sum o (nl p) (fun r => kmul o (kconj o (X p r i)) (Y p r j))).
End SpecBlas.
