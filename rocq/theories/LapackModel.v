(** The wrappers of LAPACK and of the triangular solve in src/linalg/blaslapack.c (57-63,
    1023-1143, 1152-1287, 1298-1341, 1348-1401, 1410-1539, 1545-1570, 1577-1735), with
    arrays, leading dimensions, the range of the integers of BLAS, failures of malloc and
    the variants for the libraries of R (USE_XHEEV, USE_XHEGV, USE_ZGESV, R/src/Makevars 1).

    An array is what is read from its pointer on, the element (i, j) of a matrix of leading
    dimension ld at ld * j + i.  The LAPACK routines are arbitrary functions of what they
    read (a record [lapack]); SpecLapack.v says what LAPACK documents of them.  The pivots
    and the factors of a routine are seen only by its partner.

    Simplified: the sizes of the real and integer working arrays are seen only by malloc;
    the arguments jobz, jobu, jobvt and jobvs are the ones that ask for vectors; memory left
    behind by a failure is the subject of C18 and C26.  Sizes are not negative. *)
From Coq Require Import List Arith Bool ZArith Lia.
From Verif Require Import Base ProjModel.
Import ListNotations.

Section Lapack.
Context {K : Type} (o : scal K).
Definition arr := nat -> K.

(** What the routines give: info and the arrays they write.  The [_query] functions are the
    calls with lwork = -1: info and the size of the working array. *)
Record lapack := Lap {
  heevx_query : bool -> nat -> Z * nat;
  heevx : bool -> nat -> arr -> nat -> Z * arr * arr * arr;           (* info, a, w, z *)
  heev_query : bool -> nat -> Z * nat;
  heev : bool -> nat -> arr -> nat -> Z * arr * arr;                  (* info, a, w *)
  hegvx_query : bool -> nat -> Z * nat;
  hegvx : bool -> nat -> arr -> nat -> arr -> nat -> Z * arr * arr * arr * arr; (* info, a, b, w, z *)
  hegv_query : bool -> nat -> Z * nat;
  hegv : bool -> nat -> arr -> nat -> arr -> nat -> Z * arr * arr * arr;        (* info, a, b, w *)
  gesvd_query : nat -> nat -> Z * nat;
  gesvd : nat -> nat -> arr -> nat -> nat -> Z * arr * arr * arr;     (* m n a lda ldu: info, a, s, u *)
  hetrf_query : bool -> nat -> Z * nat;
  hetrf : bool -> nat -> arr -> nat -> Z * arr * arr;                 (* info, a, ipiv *)
  hetrs : bool -> nat -> nat -> arr -> nat -> arr -> arr -> nat -> Z * arr;     (* info, b *)
  gesv : nat -> nat -> arr -> nat -> arr -> nat -> Z * arr * arr * arr;         (* info, a, ipiv, b *)
  potrf : bool -> nat -> arr -> nat -> Z * arr;                       (* info, a *)
  getrf : nat -> nat -> arr -> nat -> Z * arr * arr;                  (* info, a, ipiv *)
  getrs : bool -> nat -> nat -> arr -> nat -> arr -> arr -> nat -> Z * arr;     (* trans is C; info, b *)
  trsm : bool -> bool -> bool -> Z -> Z -> K -> arr -> Z -> arr -> Z -> arr     (* side R, uplo U, transa C; b *)
}.
Variable lap : lapack.

Variable bmax : nat.               (* PRIMME_BLASINT_MAX *)
Variable alloc : nat -> bool.      (* whether malloc of so many numbers succeeds *)
Variable cplx wide : bool.         (* USE_COMPLEX; sizeof(int) != sizeof(PRIMME_BLASINT) *)
Variable use_xheev use_xhegv use_zgesv : bool.
Variable junk : arr.               (* what malloc's memory holds *)

(** primme.h 116-119 *)
Definition UNEXPECTED : Z := (-1)%Z.
Definition MALLOC : Z := (-2)%Z.
Definition LAPACK : Z := (-40)%Z.

(** to_blas_int, 57-63 *)
Definition fits (n : nat) : bool := n <=? bmax.
(** Num_malloc, 94-114 and 213-236: nothing is allocated for no elements. *)
Definition malloc (n : nat) : bool := (n =? 0) || alloc n.
(** CHKERRM(linfo != 0, PRIMME_LAPACK_FAILURE, ...) *)
Definition reported (info : Z) : Z := if (info =? 0)%Z then 0%Z else LAPACK.

(** Num_copy_matrix(z, m, n, ldz, a, lda) between arrays apart (C30): the window of m rows
    and n columns of [a] is replaced. *)
Definition copy_matrix (z : arr) (m n ldz : nat) (a : arr) (lda : nat) : arr :=
  fun q => if (q mod lda <? m) && (q / lda <? n) then z (ldz * (q / lda) + q mod lda) else a q.
(** Num_copy_trimatrix(x, n, n, ldx, up ? 0 : 1, 0, y, n, 0), auxiliary.c 447-498, between
    arrays apart: the rows up to, or from, the diagonal. *)
Definition copy_trimatrix (x : arr) (n ldx : nat) (up : bool) (y : arr) (ldy : nat) : arr :=
  fun q => let i := q mod ldy in let j := q / ldy in
    if (i <? n) && (j <? n) && (if up then i <? S j else j <=? i) then x (ldx * j + i) else y q.

(** Num_heev, 1024-1142; result: code, a, w. *)
Definition Num_heev (up : bool) (n : nat) (a : arr) (lda : nat) (w : arr) : Z * arr * arr :=
  if negb (fits n && fits lda) then (UNEXPECTED, a, w)
  else if n =? 0 then (0%Z, a, w)
  else if negb use_xheev then
    if negb (malloc (n * n) && (if cplx then malloc (7 * n) else true) && malloc (5 * n) && malloc n)
    then (MALLOC, a, w)
    else
      let '(info0, lwork) := heevx_query lap up n in
      let lwork := if lwork <? 2 * n then 2 * n else lwork in
      if (info0 =? 0)%Z then
        if malloc lwork then
          let '(info, a1, w1, z) := heevx lap up n a lda in
          (reported info, copy_matrix z n n n a1 lda, w1)
        else (MALLOC, a, w)
      else (LAPACK, copy_matrix junk n n n a lda, w)
  else
    if negb (if cplx then malloc (3 * n) else true) then (MALLOC, a, w)
    else
      let '(info0, lwork) := heev_query lap up n in
      if (info0 =? 0)%Z then
        if malloc lwork then
          let '(info, a1, w1) := heev lap up n a lda in (reported info, a1, w1)
        else (MALLOC, a, w)
      else (LAPACK, a, w).

(** Num_hegv, 1154-1286; b0 is NULL for [None].  The fourth result is what is left in b0. *)
Definition Num_hegv (up : bool) (n : nat) (a : arr) (lda : nat) (b0 : option arr) (ldb0 : nat) (w : arr)
  : Z * arr * arr * option arr :=
  match b0 with
  | None => (Num_heev up n a lda w, None)
  | Some b0 =>
    if negb (fits n && fits lda) then (UNEXPECTED, a, w, Some b0)
    else if n =? 0 then (0%Z, a, w, Some b0)
    else if negb use_xhegv then
      if negb (malloc (n * n) && malloc (n * n) && (if cplx then malloc (7 * n) else true) && malloc (5 * n) && malloc n)
      then (MALLOC, a, w, Some b0)
      else
        let b := copy_trimatrix b0 n ldb0 up junk n in
        let '(info0, lwork) := hegvx_query lap up n in
        if (info0 =? 0)%Z then
          if malloc lwork then
            let '(info, a1, b1, w1, z) := hegvx lap up n a lda b n in
            (reported info, copy_matrix z n n n a1 lda, w1, Some b0)
          else (MALLOC, a, w, Some b0)
        else (LAPACK, copy_matrix junk n n n a lda, w, Some b0)
    else
      if negb (malloc (n * n) && (if cplx then malloc (3 * n) else true)) then (MALLOC, a, w, Some b0)
      else
        let b := copy_matrix b0 n n ldb0 junk n in
        let '(info0, lwork) := hegv_query lap up n in
        if (info0 =? 0)%Z then
          if malloc lwork then
            (* 1268-1283: linfo is not looked at *)
            let '(info, a1, b1, w1) := hegv lap up n a lda b n in (0%Z, a1, w1, Some b0)
          else (MALLOC, a, w, Some b0)
        else (0%Z, a, w, Some b0)
  end.

(** Num_gesvd("S", "O"), 1350-1400; result: code, a, s, u. *)
Definition Num_gesvd (m n : nat) (a : arr) (lda : nat) (s u : arr) (ldu : nat) : Z * arr * arr * arr :=
  if negb (fits m && fits n && fits lda && fits ldu) then (UNEXPECTED, a, s, u)
  else if (m =? 0) || (n =? 0) then (0%Z, a, s, u)
  else
    let '(info0, lwork) := gesvd_query lap m n in
    if (info0 =? 0)%Z then
      if malloc lwork && (if cplx then malloc (5 * n) else true) then
        let '(info, a1, s1, u1) := gesvd lap m n a lda ldu in
        (reported info, a1, s1, copy_matrix u1 m (Nat.min m n) ldu u ldu)
      else (MALLOC, a, s, u)
    else (LAPACK, a, s, u).

(** The pivots are stored as int, 1447-1452 and 1654-1659: the first [n]. *)
Definition pivots (n : nat) (new old : arr) : arr := if wide then fun i => if i <? n then new i else old i else new.

(** Num_hetrf, 1412-1487; result: code, a, ipivot. *)
Definition Num_hetrf (up : bool) (n : nat) (a : arr) (lda : nat) (ip : arr) : Z * arr * arr :=
  if use_zgesv then
    (* 1466-1484: the other triangle from this one *)
    (0%Z, (fun q => let i := q mod lda in let j := q / lda in
             if (i <? n) && (j <? n) && (if up then j <? i else i <? j) then kconj o (a (lda * i + j)) else a q), ip)
  else if negb (fits n && fits lda) then (UNEXPECTED, a, ip)
  else if n =? 0 then (0%Z, a, ip)
  else if negb (if wide then malloc n else true) then (MALLOC, a, ip)
  else
    let '(info0, lwork) := hetrf_query lap up n in
    if (info0 =? 0)%Z then
      if malloc lwork then
        let '(info, a1, ip1) := hetrf lap up n a lda in (reported info, a1, pivots n ip1 ip)
      else (MALLOC, a, ip)
    else (LAPACK, a, pivots n junk ip).

(** Num_hetrs, 1496-1538; result: code, a, b. *)
Definition Num_hetrs (up : bool) (n nrhs : nat) (a : arr) (lda : nat) (ip b : arr) (ldb : nat) : Z * arr * arr :=
  if negb (fits n && fits nrhs && fits lda && fits ldb) then (UNEXPECTED, a, b)
  else if (n =? 0) || (nrhs =? 0) then (0%Z, a, b)
  else if negb (if wide then malloc n else true) then (MALLOC, a, b)
  else if negb use_zgesv then
    let lip := if wide then fun i => if i <? n then ip i else junk i else ip in
    let '(info, b1) := hetrs lap up n nrhs a lda lip b ldb in (reported info, a, b1)
  else
    (* 1528: the factors take the place of the matrix *)
    let '(info, a1, _, b1) := gesv lap n nrhs a lda b ldb in (reported info, a1, b1).

(** Num_potrf, 1547-1569; [asks]: the caller gives info; result: code, info, a. *)
Definition Num_potrf (asks up : bool) (n : nat) (a : arr) (lda : nat) : Z * Z * arr :=
  if negb (fits n && fits lda) then (UNEXPECTED, 0%Z, a)
  else if n =? 0 then (0%Z, 0%Z, a)
  else let '(info, a1) := potrf lap up n a lda in
       ((if negb asks then reported info else 0%Z), info, a1).

(** The assignment of a PRIMME_INT to a PRIMME_BLASINT: modulo 2 (bmax + 1). *)
Definition narrow (n : nat) : Z :=
  let m := (2 * (Z.of_nat bmax + 1))%Z in
  let r := (Z.of_nat n mod m)%Z in
  if (r <=? Z.of_nat bmax)%Z then r else (r - m)%Z.

(** Num_trsm, 1579-1597: the sizes are assigned, not checked. *)
Definition Num_trsm (right up conjt : bool) (m n : nat) (alpha : K) (a : arr) (lda : nat) (b : arr) (ldb : nat)
  : Z * arr :=
  if (m =? 0) || (n =? 0) then (0%Z, b)
  else (0%Z, trsm lap right up conjt (narrow m) (narrow n) alpha a (narrow lda) b (narrow ldb)).

(** Num_getrf for a square matrix, 1634-1665 (sizes within the range of the integers). *)
Definition Num_getrf (n : nat) (a : arr) (lda : nat) (ip : arr) : Z * arr * arr :=
  if n =? 0 then (0%Z, a, ip)
  else if negb (if wide then malloc n else true) then (MALLOC, a, ip)
  else let '(info, a1, ip1) := getrf lap n n a lda in (reported info, a1, pivots n ip1 ip).
(** Num_getrs, 1675-1713. *)
Definition Num_getrs (conjt : bool) (n nrhs : nat) (a : arr) (lda : nat) (ip b : arr) (ldb : nat) : Z * arr * arr :=
  if (n =? 0) || (nrhs =? 0) then (0%Z, a, b)
  else if negb (if wide then malloc n else true) then (MALLOC, a, b)
  else
    let lip := if wide then fun i => if i <? n then ip i else junk i else ip in
    let '(info, b1) := getrs lap conjt n nrhs a lda lip b ldb in (reported info, a, b1).

(** A factorization and the systems solved with it afterwards, one after the other, as
    MSolve is used in the inner iterations (inner_solve.c 795): the codes and solutions. *)
Fixpoint solve_all (up : bool) (n nrhs : nat) (a : arr) (lda : nat) (ip : arr) (bs : list arr) (ldb : nat) : list (Z * arr) :=
  match bs with
  | [] => []
  | b :: t => let '(c, a1, x) := Num_hetrs up n nrhs a lda ip b ldb in (c, x) :: solve_all up n nrhs a1 lda ip t ldb
  end.
Fixpoint solve_all_lu (conjt : bool) (n nrhs : nat) (a : arr) (lda : nat) (ip : arr) (bs : list arr) (ldb : nat) : list (Z * arr) :=
  match bs with
  | [] => []
  | b :: t => let '(c, a1, x) := Num_getrs conjt n nrhs a lda ip b ldb in (c, x) :: solve_all_lu conjt n nrhs a1 lda ip t ldb
  end.
End Lapack.
Arguments lapack : clear implicits.
