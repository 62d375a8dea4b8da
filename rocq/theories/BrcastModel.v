(** Model of what process 0 computes alone and sends to the others:
    solve_H and solve_H_brcast (src/eigs/solve_projection.c 95-153, 657-776), the
    previous coefficient vectors kept at a restart (ortho_coefficient_vectors,
    src/eigs/restart.c 2346-2408).

    Memory is counted in REALs, of which a SCALAR has [c] (1, or 2 in complex
    arithmetic).  A matrix is a function of column, row and component.  Memory from
    malloc holds [None] until it is written; sending it is [None] (undefined).
    A broadcast returns when every process called it with the same count and leaves on
    each the buffer of process 0 converted to the type of the callback and back
    ([conv], C08); with one process it does nothing (auxiliary_eigs.c 440).
    Not modelled: what process 0 computes (any result or error), failures of malloc. *)
From Coq Require Import List Arith Bool.
From Verif Require Import Base.
Import ListNotations.

Section Brcast.
Context {R : Type}.
Variable zero : R.
Variable conv : R -> R.
Variable np : nat.
Variable c : nat.                       (* sizeof(SCALAR)/sizeof(REAL) *)

Definition buf := list (option R).
Definition written (b : buf) : bool := forallb (fun x => match x with Some _ => true | None => false end) b.
(** Every process gets the buffer of process 0; [None]: blocked or undefined. *)
Definition bcast (bufs : nat -> buf) : option (nat -> buf) :=
  if forallb (fun p => length (bufs p) =? length (bufs 0)) (seq 0 np) && written (bufs 0) then
    if np =? 1 then Some bufs else Some (fun _ => map (option_map conv) (bufs 0))
  else None.

(** Writes [l] at [off]; [None]: past the end. *)
Definition write (off : nat) (l : list R) (b : buf) : option buf :=
  if off + length l <=? length b
  then Some (firstn off b ++ map Some l ++ skipn (off + length l) b) else None.
Definition read (b : buf) (i : nat) : option R := x <- get b i ; x.

Definition matrix := nat -> nat -> nat -> R.            (* column, row, component *)
(** Num_copy_matrix into a buffer with leading dimension [m]. *)
Definition flat (m n : nat) (M : matrix) : list R :=
  flat_map (fun j => flat_map (fun i => map (fun k => M j i k) (seq 0 c)) (seq 0 m)) (seq 0 n).
(** and back: columns j0..j0+n-1 get the n columns of [m] SCALARs at [off]. *)
Definition unflat (b : buf) (off m j0 n : nat) (M : matrix) : option matrix :=
  if off + n * (m * c) <=? length b then
    Some (fun j i k => if (j0 <=? j) && (j <? j0 + n) && (i <? m) && (k <? c)
                       then match read b (off + ((j - j0) * m + i) * c + k) with Some x => x | None => M j i k end
                       else M j i k)
  else None.
Definition vector := nat -> R.
Definition unvec (b : buf) (off n : nat) (v : vector) : option vector :=
  if off + n <=? length b then
    Some (fun i => if i <? n then match read b (off + i) with Some x => x | None => v i end else v i)
  else None.

(** The arrays of solve_H; None is NULL. *)
Record arrays := Arr { a_vecs : option matrix; a_U : option matrix; a_vals : option vector; a_svals : option vector }.
Definition given {A} (x : option A) : bool := match x with Some _ => true | None => false end.

(** (basisSize+c-1)/c SCALARs hold basisSize REALs (679-680). *)
Definition cells (b : nat) : nat := (b + c - 1) / c.
(** 676-680: the SCALARs sent. *)
Definition total (b : nat) (A : arrays) : nat :=
  (if given (a_vecs A) then b * b else 0) + (if given (a_U A) then b * b else 0)
  + (if given (a_vals A) then cells b else 0) + (if given (a_svals A) then cells b else 0).

Definition pack_matrix (b off : nat) (M : option matrix) (w : buf) : option (nat * buf) :=
  match M with
  | Some M => w' <- write off (flat b b M) w ; Some (off + b * b * c, w')
  | None => Some (off, w)
  end.
(** 705-710, 722-726: the last SCALAR is zeroed first. *)
Definition pack_reals (b off : nat) (v : option vector) (w : buf) : option (nat * buf) :=
  match v with
  | Some v =>
      w1 <- write (off + (cells b - 1) * c) (repeat zero c) w ;
      w2 <- write off (map v (seq 0 b)) w1 ;
      Some (off + cells b * c, w2)
  | None => Some (off, w)
  end.
(** 686-728 on process 0. *)
Definition pack_all (b : nat) (A : arrays) (w : buf) : option buf :=
  r1 <- pack_matrix b 0 (a_vecs A) w ;
  r2 <- pack_matrix b (fst r1) (a_U A) (snd r1) ;
  r3 <- pack_reals b (fst r2) (a_vals A) (snd r2) ;
  r4 <- pack_reals b (fst r3) (a_svals A) (snd r3) ;
  Some (snd r4).

Definition unpack_matrix (b off : nat) (M : option matrix) (w : buf) : option (nat * option matrix) :=
  match M with
  | Some M => M' <- unflat w off b 0 b M ; Some (off + b * b * c, Some M')
  | None => Some (off, None)
  end.
Definition unpack_reals (b off : nat) (v : option vector) (w : buf) : option (nat * option vector) :=
  match v with
  | Some v => v' <- unvec w off b v ; Some (off + cells b * c, Some v')
  | None => Some (off, None)
  end.
(** 735-769 on every process. *)
Definition unpack_all (b : nat) (w : buf) (A : arrays) : option arrays :=
  r1 <- unpack_matrix b 0 (a_vecs A) w ;
  r2 <- unpack_matrix b (fst r1) (a_U A) w ;
  r3 <- unpack_reals b (fst r2) (a_vals A) w ;
  r4 <- unpack_reals b (fst r3) (a_svals A) w ;
  Some (Arr (snd r1) (snd r2) (snd r3) (snd r4)).

(** solve_H_brcast on all the processes. *)
Definition solve_H_brcast (b : nat) (As : nat -> arrays) : option (nat -> option arrays) :=
  if b =? 0 then Some (fun p => Some (As p)) else                          (* 669 *)
  w0 <- pack_all b (As 0) (repeat None (total b (As 0) * c)) ;
  ws <- bcast (fun p => if p =? 0 then w0 else repeat None (total b (As p) * c)) ;
  Some (fun p => unpack_all b (ws p) (As p)).

(** What the processes do with an outcome of a computation on process 0. *)
Inductive outcome {A} :=
| Done (states : nat -> A)        (* every process goes on *)
| Returned (code : nat)           (* every process returned the code *)
| Waiting (code : nat)            (* process 0 returned the code; the others wait in the broadcast *)
| Wrong.                          (* undefined *)
Arguments outcome : clear implicits.

(** solve_H 106-137: [sol] is what process 0 computes, an error code or the arrays.
    An error returns at once from process 0 (CHKERR), before the broadcast of 134 that
    the others have entered. *)
Definition solve_H (b : nat) (sol : nat + arrays) (As : nat -> arrays) : outcome (option arrays) :=
  match sol with
  | inl e => if np =? 1 then Returned e else Waiting e
  | inr A => match solve_H_brcast b (fun p => if p =? 0 then A else As p) with
             | Some f => Done f | None => Wrong end
  end.

(** ortho_coefficient_vectors 2352-2408: [kept] is hVecs of process 0 after its loop and
    [k] the vectors retained, at most [n] (numPrevRetained on entry); [of_nat] and
    [to_nat] are (HSCALAR)retained and (int)REAL_PART(rwork[0]). *)
Variable of_nat : nat -> R.
Variable to_nat : R -> nat.
Definition keep_previous (b idx n : nat) (kept : matrix) (k : nat) (hs : nat -> matrix)
  : option (nat -> option (matrix * nat)) :=
  let len := (b * n + 1) * c in
  w1 <- write 0 (of_nat k :: repeat zero (c - 1)) (repeat None len) ;
  w2 <- write c (flat b k (fun j => kept (idx + j))) w1 ;
  w3 <- write ((1 + b * k) * c) (repeat zero (b * (n - k) * c)) w2 ;
  ws <- bcast (fun p => if p =? 0 then w3 else repeat None len) ;
  Some (fun p =>
    x <- read (ws p) 0 ;
    let k' := to_nat x in
    h <- unflat (ws p) c b idx k' (if p =? 0 then kept else hs p) ;
    Some (h, k')).
End Brcast.
Arguments outcome : clear implicits.

(** solve_H 139-153: the extreme Ritz values seen; [leb] compares, [mag] is the absolute value. *)
Section Seen.
Context {V : Type}.
Variable leb : V -> V -> bool.
Variable mag : V -> V.
Record seen := Seen { s_min : V; s_max : V; s_large : V }.
Definition vmin (a b : V) : V := if leb a b then a else b.
Definition vmax (a b : V) : V := if leb a b then b else a.
Definition see (s : seen) (v : V) : seen :=
  Seen (vmin (s_min s) v) (vmax (s_max s) v) (vmax (s_large s) (mag v)).
Definition see_all (s : seen) (vals : list V) : seen := fold_left see vals s.
End Seen.
