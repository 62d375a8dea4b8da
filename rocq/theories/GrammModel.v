(** Model of the Gram matrix of device builds: Num_compute_gramm and
    Num_compute_gramm_ddh of src/linalg/cublas_wrapper.c 898-986 (the same text in
    magma_wrapper.c 966-1072).  The host build, blaslapack.c 1739-1751, computes the
    full product; it is [host_gramm] here.

    Matrices are functions of row and column; X and Y have [m] rows.  Not modelled:
    failures of malloc, transfers between device and host (identities), rounding. *)
From Coq Require Import List Arith Bool.
From Verif Require Import Base ProjModel MatAlg.
Import ListNotations.

Section Gramm.
Context {K : Type} (o : scal K).

(** alpha * H + X'*Y at an entry. *)
Definition gemm_entry (m : nat) (alpha : K) (X Y H : nat -> nat -> K) (i j : nat) : K :=
  kadd o (kmul o alpha (H i j)) (sum o m (fun r => kmul o (kconj o (X r i)) (Y r j))).
(** gemm("C","N", nr, nc, ...) from column x of X and y of Y into the block at (x, y) of H. *)
Definition gemm_block (m x nr y nc : nat) (alpha : K) (X Y H : nat -> nat -> K) : nat -> nat -> K :=
  fun i j => if (x <=? i) && (i <? x + nr) && (y <=? j) && (j <? y + nc)
             then gemm_entry m alpha X Y H i j else H i j.

(** Num_compute_gramm, cublas_wrapper.c 898-933; [x] is the column X and Y point to and
    the diagonal entry H points to.  The recursive calls give deep-1 for isherm and 1
    for deep, as written at 926-929. *)
Fixpoint gramm (fuel m x n : nat) (alpha : K) (isherm deep : nat) (X Y H : nat -> nat -> K)
  : option (nat -> nat -> K) :=
  match fuel with
  | 0 => None
  | S fuel' =>
    if (m =? 0) || (n =? 0) then Some H else
    let whole := (isherm =? 0) || (n <=? 2) || (deep =? 0) in
    let L := if whole then n else (n + 1) / 2 in
    let l := if whole then 0 else n / 2 in
    H1 <- gramm fuel' m x l alpha (deep - 1) 1 X Y H ;
    H2 <- gramm fuel' m (x + L) l alpha (deep - 1) 1 X Y H1 ;
    Some (gemm_block m x L (x + l) L alpha X Y H2)
  end.

(** Num_compute_gramm_ddh, cublas_wrapper.c 962-986, with isherm. *)
Definition device_gramm (m n : nat) (alpha : K) (X Y H : nat -> nat -> K) : option (nat -> nat -> K) :=
  if (m =? 0) || (n =? 0) then Some H else
  let D := if kzero o alpha then fun _ _ => k0 o else H in
  D' <- gramm (S n) m 0 n alpha 1 4 X Y D ;
  Some (fun i j => if (i <? n) && (j <? n) then D' i j else H i j).
(** blaslapack.c 1739-1751. *)
Definition host_gramm (m n : nat) (alpha : K) (X Y H : nat -> nat -> K) : nat -> nat -> K :=
  gemm_block m 0 n 0 n alpha X Y H.
End Gramm.
