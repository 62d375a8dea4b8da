(** Model of the shifts given to the user's preconditioner and used in the correction
    equation: solve_correction_Sprimme, src/eigs/correction.c 178-332, computeRobustShift
    525-602, the shifts set by restart_locking (src/eigs/restart.c 1494-1509) and by
    init_basis (src/eigs/init.c 160).

    Numbers are reals; a division by zero and a read out of an array give [None].  Arrays
    are lists as long as their used part.  The non-Hermitian build is not modelled. *)
From Coq Require Import List Arith Bool Reals.
From Verif Require Import Base Values MergeModel.
Import ListNotations.
Local Open Scope R_scope.

Definition ltb (x y : R) : bool := if Rlt_dec x y then true else false.
Definition leb (x y : R) : bool := if Rle_dec x y then true else false.
Definition eqb (x y : R) : bool := if Req_EM_T x y then true else false.
(** The reals as the numbers of mergeSort. *)
Definition Rops : vops R :=
  {| vleb := leb; vltb := ltb; veqb := eqb; vsub := Rminus; vabs := Rabs; vneg := Ropp |}.

Record sparams := SP { tgt : target; locking : bool; robust : bool; refined : bool;
  targetShifts : list R; outer : nat; invB : R; machine_max : R }.

(** The element before index i. *)
Definition get_before (l : list R) (i : nat) : option R :=
  match i with 0 => None | S k => get l k end.

(** computeRobustShift 525-602: the shift, and the one for the approximate Olsen method. *)
Definition robust_shift (p : sparams) (i : nat) (res : R) (prev s : list R) : option (R * R) :=
  let n := length s in
  if (outer p <=? 1)%nat then Some (res * sqrt (invB p), res * sqrt (invB p))
  else
    lg <- (if (i =? 0)%nat && (2 <=? n)%nat then
             x1 <- get s 1; x0 <- get s 0; Some (machine_max p, Rabs (x1 - x0))
           else if (0 <? i)%nat && (2 <=? n)%nat && (i + 1 <? n)%nat then
             xi <- get s i; xb <- get_before s i; xa <- get s (i + 1);
             let lower := Rabs (xi - xb) in
             Some (lower, Rmin lower (Rabs (xa - xi)))
           else
             xi <- get s i; xb <- get_before s i;
             Some (Rabs (xi - xb), Rabs (xi - xb)));
    delta <- (if (i <? length prev)%nat then pi <- get prev i; xi <- get s i; Some (Rabs (pi - xi))
              else Some (machine_max p));
    eps <- (if ltb res (snd lg) then
              Some (Rmin delta (Rmin (res * res * invB p / snd lg) (fst lg)))
            else Some (Rmin (res * sqrt (invB p)) (fst lg)));
    Some (eps, Rmin delta eps).

Definition is_extreme (t : target) : bool := match t with smallest | largest => true | _ => false end.

(** 221-225: the shift of the user for the next pair. *)
Definition user_shift (p : sparams) (numLocked : nat) : option R :=
  match targetShifts p with
  | [] => Some 0
  | l => get l (Nat.min (length l - 1) numLocked)
  end.

(** 226-252, targets other than the extremes. *)
Definition interior_shift (p : sparams) (numLocked i : nat) (res : R) (prev s : list R) : option (R * R) :=
  t <- user_shift p numLocked;
  x <- get s i;
  sh <- (if ltb (Rabs (x - t)) (res * sqrt (invB p)) then Some t
         else if refined p then Some x
         else if eqb (Rabs (t - x)) 0 then None
         else Some (x + res * sqrt (invB p) * (t - x) / Rabs (t - x)));
  e <- (if (i <? length prev)%nat then y <- get prev i; Some (Rabs (y - x)) else Some (res * sqrt (invB p)));
  Some (sh, e).

(** 270-296, extreme targets with robust shifts. *)
Definition extreme_shift (p : sparams) (i : nat) (res : R) (prev s : list R) : option (R * R) :=
  x <- get s i;
  q <- robust_shift p i res prev s;
  sh <- match tgt p with
        | smallest => if (0 <? i)%nat then b <- get_before s i; Some (Rmax (x - fst q) b) else Some (x - fst q)
        | _ => if (0 <? i)%nat then b <- get_before s i; Some (Rmin (x + fst q) b) else Some (x + fst q)
        end;
  Some (sh, snd q).

(** 302-316, extreme targets without. *)
Definition plain_shift (p : sparams) (ritz : list R) (iv i : nat) (res : R) (prev s : list R) : option (R * R) :=
  x <- get ritz iv;
  e <- (if (i <? length prev)%nat then y <- get prev i; z <- get s i; Some (Rabs (y - z)) else Some (res * sqrt (invB p)));
  Some (x, e).

(** The loops over the block: [iev] and [ilev] the indices among the Ritz values and among
    the sorted values, [norms] the residual norms. *)
Fixpoint block_shifts (p : sparams) (numLocked : nat) (ritz prev s : list R)
         (iev ilev : list nat) (norms : list R) : option (list (R * R)) :=
  match iev, ilev, norms with
  | [], _, _ => Some []
  | iv :: iev', il :: ilev', r :: norms' =>
      q <- (if is_extreme (tgt p) then
              if robust p then extreme_shift p il r prev s else plain_shift p ritz iv il r prev s
            else interior_shift p numLocked il r prev s);
      t <- block_shifts p numLocked ritz prev s iev' ilev' norms';
      Some (q :: t)
  | _, _, _ => None
  end.

Fixpoint written (l : list (option R)) : option (list R) :=
  match l with [] => Some [] | x :: t => y <- x; q <- written t; Some (y :: q) end.

(** 181-330: the shifts ShiftsForPreconditioner points to, those of Olsen's method, and the
    values remembered for the next call. *)
Record shifts := Shifts { given : list R; olsen : list R; next_prev : list R }.
Definition correction_shifts (p : sparams) (locked : list R) (ritz : list (R * flag)) (prev : list R)
           (iev : list nat) (norms : list R) : option shifts :=
  si <- (if locking p && is_extreme (tgt p) then
           q <- mergeSort Rops (tgt p) locked ritz (length iev);
           s <- written (fst q);
           Some (s, snd q)
         else Some (map fst ritz, iev));
  l <- block_shifts p (length locked) (map fst ritz) prev (fst si) iev (snd si) norms;
  Some (Shifts (map fst l) (map snd l)
         (if is_extreme (tgt p) then firstn (length locked + length ritz) (fst si)
          else firstn (length ritz) (fst si))).

(** restart.c 1494-1509: the shifts while the preconditioner is applied to the newly locked
    vectors, [done] .. [conv - 1]; [None] is NULL. *)
Definition lock_shifts (targetShifts : list R) (done conv : nat) : option (list R) :=
  if (conv <=? length targetShifts)%nat then Some (skipn done targetShifts)
  else if (0 <? length targetShifts)%nat
  then Some (map (fun i => nth (Nat.min (i + done) (length targetShifts - 1)) targetShifts 0) (seq 0 (conv - done)))
  else None.
(** init.c 160, applied to the constraints. *)
Definition init_shifts : option (list R) := None.
