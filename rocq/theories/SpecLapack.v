(** What LAPACK documents of the routines PRIMME uses, and the words of C62. *)
From Coq Require Import List Arith Bool ZArith.
From Verif Require Import ProjModel LapackModel SpecProj.
Import ListNotations.

Section Spec.
Context {K : Type} (o : scal K).
Definition arr := nat -> K.

(** The Hermitian matrix whose upper (lower) triangle is stored. *)
Definition herm (up : bool) (a : arr) (ld i j : nat) : K :=
  if (if up then i <=? j else j <=? i) then a (ld * j + i) else kconj o (a (ld * i + j)).
(** The general matrix stored; its conjugate transpose. *)
Definition full (a : arr) (ld i j : nat) : K := a (ld * j + i).
Definition adjoint (A : nat -> nat -> K) (i j : nat) : K := kconj o (A j i).
Definition ident (i j : nat) : K := if i =? j then k1 o else k0 o.

(** Nothing but m rows of n columns is changed. *)
Definition only (m n ld : nat) (a a' : arr) : Prop :=
  forall q, ~ (q mod ld < m /\ q / ld < n) -> a' q = a q.

(** The columns of z are eigenvectors with the values w, orthonormal in the product of B. *)
Definition eigen (n : nat) (H B : nat -> nat -> K) (w z : arr) (ldz : nat) : Prop :=
  (forall i j, i < n -> j < n ->
     total o n (fun k => kmul o (H i k) (z (ldz * j + k)))
     = kmul o (w j) (total o n (fun k => kmul o (B i k) (z (ldz * j + k))))) /\
  (forall i j, i < n -> j < n ->
     inner o n (fun k => z (ldz * i + k)) (fun k => total o n (fun l => kmul o (B k l) (z (ldz * j + l)))) = ident i j).

(** The columns of x solve A x = b. *)
Definition solved (n nrhs : nat) (A : nat -> nat -> K) (b x : arr) (ldb : nat) : Prop :=
  forall i j, i < n -> j < nrhs -> total o n (fun k => kmul o (A i k) (x (ldb * j + k))) = b (ldb * j + i).

(** a = u diag(s) vt, vt in the first min(m, n) rows of an array like a, u orthonormal. *)
Definition svd (m n : nat) (a : arr) (lda : nat) (s u : arr) (ldu : nat) (vt : arr) : Prop :=
  (forall i j, i < m -> j < n ->
     total o (Nat.min m n) (fun k => kmul o (kmul o (u (ldu * k + i)) (s k)) (vt (lda * j + k))) = a (lda * j + i)) /\
  (forall i j, i < Nat.min m n -> j < Nat.min m n ->
     inner o m (fun k => u (ldu * i + k)) (fun k => u (ldu * j + k)) = ident i j).

(** LAPACK: if info is zero the result is the one asked for; only the arrays named are
    written, and in them only the elements of the matrices. *)
Record lapack_laws (lap : lapack K) := Laws {
  l_heevx : forall up n a lda a' w z, 0 < n -> n <= lda -> heevx lap up n a lda = (0%Z, a', w, z) ->
    eigen n (herm up a lda) ident w z n;
  l_heevx_a : forall up n a lda i a' w z, 0 < n -> n <= lda -> heevx lap up n a lda = (i, a', w, z) -> only n n lda a a';
  l_heev : forall up n a lda a' w, 0 < n -> n <= lda -> heev lap up n a lda = (0%Z, a', w) ->
    eigen n (herm up a lda) ident w a' lda;
  l_heev_a : forall up n a lda i a' w, 0 < n -> n <= lda -> heev lap up n a lda = (i, a', w) -> only n n lda a a';
  l_hegvx : forall up n a lda b ldb a' b' w z, 0 < n -> n <= lda -> n <= ldb ->
    hegvx lap up n a lda b ldb = (0%Z, a', b', w, z) -> eigen n (herm up a lda) (herm up b ldb) w z n;
  l_hegvx_a : forall up n a lda b ldb i a' b' w z, 0 < n -> n <= lda -> n <= ldb ->
    hegvx lap up n a lda b ldb = (i, a', b', w, z) -> only n n lda a a';
  l_hegv : forall up n a lda b ldb a' b' w, 0 < n -> n <= lda -> n <= ldb ->
    hegv lap up n a lda b ldb = (0%Z, a', b', w) -> eigen n (herm up a lda) (herm up b ldb) w a' lda;
  l_hegv_a : forall up n a lda b ldb i a' b' w, 0 < n -> n <= lda -> n <= ldb ->
    hegv lap up n a lda b ldb = (i, a', b', w) -> only n n lda a a';
  l_gesvd : forall m n a lda ldu a' s u, 0 < m -> 0 < n -> m <= lda -> m <= ldu ->
    gesvd lap m n a lda ldu = (0%Z, a', s, u) -> svd m n a lda s u ldu a';
  l_gesvd_a : forall m n a lda ldu i a' s u, 0 < m -> 0 < n -> m <= lda -> m <= ldu ->
    gesvd lap m n a lda ldu = (i, a', s, u) -> only m n lda a a';
  l_hetrs : forall up n nrhs a lda f p p' b ldb x, 0 < n -> n <= lda -> n <= ldb ->
    hetrf lap up n a lda = (0%Z, f, p) -> (forall i, i < n -> p' i = p i) ->
    hetrs lap up n nrhs f lda p' b ldb = (0%Z, x) -> solved n nrhs (herm up a lda) b x ldb;
  l_hetrs_b : forall up n nrhs f lda p b ldb i x, 0 < n -> n <= lda -> n <= ldb ->
    hetrs lap up n nrhs f lda p b ldb = (i, x) -> only n nrhs ldb b x;
  l_gesv : forall n nrhs a lda b ldb a' p x, 0 < n -> n <= lda -> n <= ldb ->
    gesv lap n nrhs a lda b ldb = (0%Z, a', p, x) -> solved n nrhs (full a lda) b x ldb;
  l_gesv_b : forall n nrhs a lda b ldb i a' p x, 0 < n -> n <= lda -> n <= ldb ->
    gesv lap n nrhs a lda b ldb = (i, a', p, x) -> only n nrhs ldb b x;
  l_getrs : forall conjt n nrhs a lda f p p' b ldb x, 0 < n -> n <= lda -> n <= ldb ->
    getrf lap n n a lda = (0%Z, f, p) -> (forall i, i < n -> p' i = p i) ->
    getrs lap conjt n nrhs f lda p' b ldb = (0%Z, x) ->
    solved n nrhs (if conjt then adjoint (full a lda) else full a lda) b x ldb
}.

(** The triangular solve with the matrix on the right: x A = alpha b, every row by itself;
    rows and columns outside of the sizes given are not written. *)
Definition upper (a : arr) (ld i j : nat) : K := if i <=? j then a (ld * j + i) else k0 o.
Definition rows_solved (m n : nat) (A : nat -> nat -> K) (alpha : K) (b x : arr) (ldb : nat) : Prop :=
  forall r j, r < m -> j < n ->
    total o n (fun k => kmul o (x (ldb * k + r)) (A k j)) = kmul o alpha (b (ldb * j + r)).
Definition trsm_law (lap : lapack K) : Prop :=
  forall m n alpha a lda b ldb, (forall i, i < n -> a (lda * i + i) <> k0 o) -> n <= lda -> m <= ldb -> 0 < ldb ->
    let x := trsm lap true true false (Z.of_nat m) (Z.of_nat n) alpha a (Z.of_nat lda) b (Z.of_nat ldb) in
    rows_solved m n (upper a lda) alpha b x ldb /\ only m n ldb b x.
End Spec.
