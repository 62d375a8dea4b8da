(** The norm of the correction in the adaptive stopping of the inner solver with a mass
    matrix: inner_solve.c 416-422 with massMatrixMatvec_Sprimme (auxiliary_eigs.c 250-297)
    and Num_dist_dots_real_Sprimme on one process.  Arrays are lists of scalars, the
    columns one after another; [None] is an access outside of an array.

    Simplified: the number of rows of a process is that of the matrix; assertions are
    compiled out (Make_flags 33: -DNDEBUG); the conversion of the numbers is left out,
    [same] says whether the type of the user's function is the working one. *)
From Coq Require Import List Arith Bool.
From Verif Require Import Base.
Import ListNotations.

Section MassNorm.
Context {K : Type}.

(** [rows] entries of column [j] of an array of leading dimension [ld]. *)
Definition column (mem : list K) (ld rows j : nat) : option (list K) :=
  if j * ld + rows <=? length mem then Some (firstn rows (skipn (j * ld) mem)) else None.
(** The columns j, j + 1, ... *)
Fixpoint columns (mem : list K) (ld rows j n : nat) : option (list (list K)) :=
  match n with
  | 0 => Some []
  | S m => c <- column mem ld rows j ; t <- columns mem ld rows (S j) m ; Some (c :: t)
  end.

(** massMatrixMatvec_Sprimme(V, nLocal, ldV, BV, ldBV, 0, blockSize): the columns the user's
    function stores in BV.  The function reads [n] rows, primme.nLocal, of every column of
    what it is given: V itself, or a copy of [nLocal] rows per column (268-275).  In the
    second case [nLocal] rows per column are copied back (285-287) into BV, of [size]
    entries: the last one has to fit.  [Bm] is the product with one vector. *)
Definition mass_call (Bm : list K -> list K) (same : bool) (n : nat)
    (V : list K) (nLocal ldV size ldBV blockSize : nat) : option (list (list K)) :=
  if same then
    cs <- columns V ldV n 0 blockSize ; Some (map Bm cs)
  else
    copy <- columns V ldV nLocal 0 blockSize ;
    cs <- columns (concat copy) nLocal n 0 blockSize ;
    if (blockSize =? 0) || ((blockSize - 1) * ldBV + nLocal <=? size) then Some (map Bm cs) else None.

(** x_j' y_j (blas_distributed.c, Num_dist_dots_real). *)
Fixpoint dots (dot : list K -> list K -> K) (xs ys : list (list K)) : list K :=
  match xs, ys with
  | x :: xs', y :: ys' => dot x y :: dots dot xs' ys'
  | _, _ => []
  end.

(** 416-422, with the arguments in the order of the code: ldsol is given for the number
    of rows and nLocal for the leading dimension.  The array w has nLocal blockSize entries
    (154), sol has leading dimension [ldsol], primme.ldOPs (correction.c 390). *)
Definition bnormsol (dot : list K -> list K -> K) (Bm : list K -> list K) (same : bool)
    (nLocal ldsol blockSize : nat) (sol : list K) : option (list K) :=
  w <- mass_call Bm same nLocal sol ldsol nLocal (nLocal * blockSize) nLocal blockSize ;
  cs <- columns sol ldsol nLocal 0 blockSize ;
  Some (dots dot cs w).
End MassNorm.
