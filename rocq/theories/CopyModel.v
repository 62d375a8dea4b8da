(** Num_copy_matrix (src/linalg/blaslapack.c 436-482): copying a column-major
    block inside memory, source and destination possibly overlapping.

    Memory is one flat checked array; [x] and [y] are the positions of the first
    elements of source and destination.  A [memmove] reads all its bytes before
    writing any, so it is one batch of moves; an assignment is a batch of one.
    The function is modelled as the program (list of batches, in order) that it
    executes.  Simplification: both blocks are in the same array, so that the
    pointer comparisons are comparisons of positions. *)
From Coq Require Import List Arith Bool.
From Verif Require Import Base.
Import ListNotations.

Definition move : Type := nat * nat.       (* from, to *)
Definition batch : Type := list move.

Section Exec.
Context {A : Type}.

Fixpoint read_all (mem : list A) (b : batch) : option (list A) :=
  match b with
  | [] => Some []
  | (s, _) :: r => v <- get mem s; vs <- read_all mem r; Some (v :: vs)
  end.
Fixpoint write_all (mem : list A) (b : batch) (vs : list A) : option (list A) :=
  match b, vs with
  | [], _ => Some mem
  | (_, t) :: r, v :: vs' => mem' <- put mem t v; write_all mem' r vs'
  | _ :: _, [] => None
  end.
Definition exec_batch (mem : list A) (b : batch) : option (list A) :=
  vs <- read_all mem b; write_all mem b vs.
Fixpoint exec (mem : list A) (prog : list batch) : option (list A) :=
  match prog with
  | [] => Some mem
  | b :: r => mem' <- exec_batch mem b; exec mem' r
  end.
End Exec.

(** [for (j = 0; j < m; j++) y[i*ldy+j] = x[i*ldx+j]] *)
Definition col_moves (x ldx y ldy m i : nat) : batch :=
  map (fun j => (x + i * ldx + j, y + i * ldy + j)) (seq 0 m).
Definition singly (b : batch) : list batch := map (fun mv => [mv]) b.

(** The program executed by Num_copy_matrix(x, m, n, ldx, y, ldy). *)
Definition copy_matrix (x m n ldx y ldy : nat) : list batch :=
  if (x =? y) && (ldx =? ldy) then []                               (* 446-447 *)
  else if (m =? 0) || (n =? 0) then []                              (* 450-451 *)
  else if (ldx =? ldy) && (ldx =? m) then                           (* 454-456 *)
    [map (fun k => (x + k, y + k)) (seq 0 (m * n))]
  else if (ldx =? ldy) && ((if x <? y then y - x else x - y) <? ldx) then  (* 459-462 *)
    map (col_moves x ldx y ldy m) (seq 0 n)
  else if (ldx =? ldy) && (x <? y) && (ldx <? y - x) then           (* 465-469 *)
    flat_map (fun i => singly (col_moves x ldx y ldy m i)) (rev (seq 0 n))
  else                                                              (* 472-479 *)
    flat_map (fun i => singly (col_moves x ldx y ldy m i)) (seq 0 n).
