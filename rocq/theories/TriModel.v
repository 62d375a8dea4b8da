(** Model of the compact copies of an upper trapezoid,
    src/linalg/auxiliary.c 520-567, and of their use in
    src/eigs/update_projection.c 82-166.

    Matrices are flat column-major arrays: entry (row j, column i) is at
    position i*ld + j.  Out-of-range accesses give [None].  The C int k is a
    nat; in the unpacking k+1 is stored, so that k = -1 is representable. *)
From Verif Require Import Base.
From Coq Require Import List Arith.
Import ListNotations.

Section Tri.
Context {A : Type}.

(** Lines 529-530, inner loop: [cnt] more entries, from x[src] to y[k]. *)
Fixpoint pack_row (cnt : nat) (x : list A) (src : nat) (y : list A) (k : nat)
  : option (list A * nat) :=
  match cnt with
  | 0 => Some (y, k)
  | S c =>
      v <- get x src;
      y' <- put y k v;
      pack_row c x (S src) y' (S k)
  end.

(** Line 528, outer loop: columns i .. i+cols-1; column i has i+i0+1 entries. *)
Fixpoint pack_cols (cols : nat) (x : list A) (ldx i0 i : nat) (y : list A) (k : nat)
  : option (list A * nat) :=
  match cols with
  | 0 => Some (y, k)
  | S c =>
      r <- pack_row (i + i0 + 1) x (i * ldx) y k;
      pack_cols c x ldx i0 (S i) (fst r) (snd r)
  end.

(** Num_copy_trimatrix_compact_Sprimme, auxiliary.c 520-534.  [None] is a
    memory error or the -1 return of line 526. *)
Definition pack (x : list A) (m n ldx i0 : nat) (y : list A)
  : option (list A * nat) :=
  if m <? n then None else pack_cols n x ldx i0 0 y 0.

(** Lines 562-563, inner loop: [cnt] entries of the column starting at
    [dst], last one first; [k1] is k+1. *)
Fixpoint unpack_row (cnt : nat) (x : list A) (k1 : nat) (y : list A) (dst : nat)
  : option (list A * nat) :=
  match cnt with
  | 0 => Some (y, k1)
  | S c =>
      match k1 with
      | 0 => None
      | S k =>
          v <- get x k;
          y' <- put y (dst + c) v;
          unpack_row c x k y' dst
      end
  end.

(** Line 561, outer loop: columns [cols]-1 down to 0. *)
Fixpoint unpack_cols (cols : nat) (x : list A) (ldy i0 : nat) (k1 : nat) (y : list A)
  : option (list A) :=
  match cols with
  | 0 => Some y
  | S i =>
      r <- unpack_row (i + i0 + 1) x k1 y (i * ldy);
      unpack_cols i x ldy i0 (snd r) (fst r)
  end.

(** Num_copy_compact_trimatrix_Sprimme, auxiliary.c 554-567. *)
Definition unpack (x : list A) (m n i0 : nat) (y : list A) (ldy : nat)
  : option (list A) :=
  if m <? n then None else unpack_cols n x ldy i0 ((n + 1) * n / 2 + i0 * n) y.

End Tri.

Section Projection.
(** update_projection_Sprimme (update_projection.c 82-166), symmetric case
    on several processes.  [prod p r c] is entry (r,c) of the local product
    X'*Y of process [p]; what gemm writes is taken as given (lines 100-102
    fill rows 0..numCols+blockSize-1 of the blockSize new columns).
    Simplification: globalSum adds entry-wise with the operation [add];
    the order of additions of the real reduction is not modelled. *)
Context {A : Type} (add : A -> A -> A).

(** Entry-wise sum over the processes of the packed buffers; buffers of
    different length are not added (MPI error). *)
Fixpoint zipadd (a b : list A) : option (list A) :=
  match a, b with
  | [], [] => Some []
  | x :: a', y :: b' => t <- zipadd a' b'; Some (add x y :: t)
  | _, _ => None
  end.

Fixpoint reduce (bufs : list (list A)) : option (list A) :=
  match bufs with
  | [] => None
  | [b] => Some b
  | b :: t => s <- reduce t; zipadd b s
  end.

(** Run an option computation on every process. *)
Fixpoint mapM {B C} (f : B -> option C) (l : list B) : option (list C) :=
  match l with
  | [] => Some []
  | x :: t => y <- f x; ys <- mapM f t; Some (y :: ys)
  end.

(** Lines 124-142: [zs] are the local arrays Z+ldZ*numCols after gemm; [junk]
    fills the freshly allocated rwork of (numCols+blockSize)*blockSize. *)
Definition reduce_projection (zs : list (list A)) (numCols blockSize ldZ : nat)
           (junk : A) : option (list (list A)) :=
  let m := numCols + blockSize in
  packed <- mapM (fun z => r <- pack z m blockSize ldZ numCols
                                  (repeat junk (m * blockSize));
                           Some (firstn (snd r) (fst r))) zs;
  s <- reduce packed;
  mapM (fun z => unpack s m blockSize numCols z ldZ) zs.

End Projection.
