(** Model of the operator the singular value solver gives to the eigensolver, of the
    limits on products it sets, and of the shifts it gives it:
    src/svds/primme_svds_c.c matrixMatvec_eigs_Sprimme 1323-1381,
    copy_last_params_from_svds 676-757, copy_last_params_to_svds 1001-1004. *)
From Coq Require Import List Arith ZArith Bool Lia Reals.
From Verif Require Import Base SvdsModel.
Import ListNotations.

(** ** matrixMatvec_eigs.

    [x], [y] and [aux] are flat arrays, accesses out of which give [None]; the user's
    function multiplies each column of its block by A ([f]) or A' ([g]).  Its error code
    for the k-th call is [ierr k]; the calls made are recorded (transposed?, columns). *)
Section Operator.
Context {E : Type}.
Variables (f g : list E -> list E).
Variable ierr : nat -> Z.
Variables (mL nL : nat).                         (* primme_svds->mLocal, nLocal *)

Record result := Result { r_y : list E; r_calls : list (bool * nat); r_err : Z }.

(** One call of the user's matrixMatvec: [bs] columns of [src], [lds] apart, at [p],
    into [dst] at [q]; [mi] and [mo] are the lengths of the columns. *)
Definition user (tr : bool) (src : list E) (p lds : nat) (dst : list E) (q ldd bs : nat) : option (list E) :=
  cs <- read_cols src p (if tr then mL else nL) lds bs;
  write_cols dst q ldd (map (if tr then g else f) cs).

(** 1341-1350 and 1358-1367; [tr] is the first product: not transposed for A'A. *)
Fixpoint normal_loop (fuel : nat) (tr : bool) (x : list E) (ldx : nat) (aux : list E) (ldy : nat)
  (blockSize maxb i : nat) (y : list E) (calls : list (bool * nat)) : option result :=
  match fuel with
  | 0 => None
  | S fu =>
      let bs := Nat.min (blockSize - i) maxb in
      if bs =? 0 then Some (Result y calls 0)
      else
        let lda := if tr then nL else mL in
        aux1 <- user tr x (ldx * i) ldx aux 0 lda bs;
        let c1 := calls ++ [(tr, bs)] in
        if negb (ierr (length calls) =? 0)%Z then Some (Result y c1 (ierr (length calls)))
        else
          y1 <- user (negb tr) aux1 0 lda y (ldy * i) ldy bs;
          let c2 := c1 ++ [(negb tr, bs)] in
          if negb (ierr (length c1) =? 0)%Z then Some (Result y1 c2 (ierr (length c1)))
          else normal_loop fu tr x ldx aux1 ldy blockSize maxb (i + bs) y1 c2
  end.

(** [junk] is what the allocated array holds at first. *)
Definition matvec_eigs (m : operator) (x : list E) (ldx : nat) (y : list E) (ldy blockSize maxb : nat)
  (junk : E) : option result :=
  match m with
  | OpAtA => normal_loop (S blockSize) false x ldx (repeat junk (mL * Nat.min maxb blockSize)) ldy
               blockSize maxb 0 y []
  | OpAAt => normal_loop (S blockSize) true x ldx (repeat junk (nL * Nat.min maxb blockSize)) ldy
               blockSize maxb 0 y []
  | OpAug =>
      y1 <- user true x nL ldx y 0 ldy blockSize;
      if negb (ierr 0 =? 0)%Z then Some (Result y1 [(true, blockSize)] (ierr 0))
      else
        y2 <- user false x 0 ldx y1 nL ldy blockSize;
        Some (Result y2 [(true, blockSize); (false, blockSize)] (ierr 1))
  | OpNone => Some (Result y [] 0)
  end.
End Operator.
Arguments result : clear implicits.

(** ** The limits on the eigensolver's products, 676-681 (C's division). *)
Definition limit1 (maxMatvecs : Z) : Z := Z.quot maxMatvecs 2.
Definition limit2 (maxMatvecs used : Z) : Z := (Z.quot maxMatvecs 2 - used)%Z.

(** ** The shifts, 683-757, and what is left of them after the call, 1001-1004.

    [ptr] is primme->targetShifts of the stage ([None]: NULL), [num] its
    numTargetShifts; [user] are the caller's.  [None] is a write past the allocation. *)
Local Open Scope R_scope.
Inductive aim := Largest | Smallest | Closest.

Record shifts := Shifts { ptr : option (list R); num : nat; owned : bool }.

(** 728-732 *)
Definition lower_bound (minval : R) (p : R * R) : R :=
  Rmax (sqrt (Rabs (Rmax (fst p - snd p) 0 * fst p))) minval.

Fixpoint insert (x : R) (l : list R) : list R :=
  match l with [] => [x] | y :: t => if Rle_dec x y then x :: l else y :: insert x t end.
(** qsort, taken as giving the ascending order. *)
Fixpoint ascending (l : list R) : list R :=
  match l with [] => [] | x :: t => insert x (ascending t) end.

Definition is_none {A} (o : option A) : bool := match o with None => true | _ => false end.

(** [found] are the triplets (values and norms) of the first stage. *)
Definition set_shifts (stage2 : bool) (m : operator) (t : aim) (user : list R) (numSvals : nat)
  (minval : R) (found : list (R * R)) (s : shifts) : option shifts :=
  if (negb stage2 && negb (length user =? 0)%nat)
     || (stage2 && is_none (ptr s) && match t with Closest => true | _ => false end)
  then
    if negb stage2 && match m with OpAtA | OpAAt => true | _ => false end
    then if (length user <=? numSvals)%nat
         then Some (Shifts (Some (map (fun x => x * x) user)) (length user) true)
         else None
    else Some (Shifts (Some user) (length user) false)
  else if stage2 && is_none (ptr s) && match t with Smallest => true | _ => false end
  then Some (Shifts (Some (ascending (map (lower_bound minval) found
                             ++ repeat minval (numSvals - length found)))) numSvals true)
  else if match m with OpAug => true | _ => false end && match t with Smallest => true | _ => false end
          && is_none (ptr s)
  then Some (Shifts (Some [0]) 1 true)
  else Some (Shifts (ptr s) (num s) false).

(** 1001-1004: what the next call finds. *)
Definition release (s : shifts) : shifts :=
  if owned s then Shifts None (num s) false else Shifts (ptr s) (num s) false.
