(** Model of the ordered insertion of converged pairs,
    insertionSort_Sprimme (src/eigs/auxiliary_eigs_normal.c 543-638, Hermitian
    case), of the locking loop of restart_locking
    (src/eigs/restart.c 951-986 and 1126-1173), and of the final reordering of
    the vectors (src/eigs/main_iter.c 1355-1357).

    Values, norms and vectors are elements of arbitrary types.  Arrays are
    checked: an access out of range gives [None].  The offset numOrthoConst of
    the columns of evecs is dropped: [evecs] starts at the first eigenvector.
    The copies into Bevecs (same indices) and the monitor call are not
    modelled. *)
From Verif Require Import Base Values PermModel RitzModel.
From Coq Require Import List Arith Bool.
Import ListNotations.

Section Lock.
Context {V N X : Type} (o : vops V).

(** The test ending the backward scan at entry [e] (lines 556-613); [cs] is
    currentShift. *)
Definition stop_test (t : target) (cs newVal e : V) : bool :=
  match t with
  | smallest => vleb o e newVal
  | largest => vleb o newVal e
  | closest_geq => vleb o (vsub o e cs) (vsub o newVal cs)
  | closest_leq => vleb o (vsub o cs e) (vsub o cs newVal)
  | closest_abs => vleb o (vdist o cs e) (vdist o cs newVal)
  | largest_abs => vleb o (vdist o cs newVal) (vdist o cs e)
  end.

(** The scan for the position: i = n, n-1, ..., stop at 0. *)
Fixpoint scan (t : target) (shifts : list V) (initialShift : nat)
         (cs : option V) (newVal : V) (evals : list V) (i : nat) : option nat :=
  match i with
  | 0 => Some 0
  | S k =>
      e <- get evals k;
      match t with
      | smallest | largest =>
          if stop_test t e newVal e then Some i
          else scan t shifts initialShift cs newVal evals k
      | _ =>
          c <- cs;
          ith <- pick_shift shifts (initialShift + k);
          if negb (veqb o ith c) || stop_test t c newVal e then Some i
          else scan t shifts initialShift cs newVal evals k
      end
  end.

(** Lines 623-628 for one array: cnt elements from position i move up. *)
Fixpoint shift_up {B} (a : list B) (i cnt : nat) : option (list B) :=
  match cnt with
  | 0 => Some a
  | S c =>
      v <- get a (i + c);
      a' <- put a (i + c + 1) v;
      shift_up a' i c
  end.

(** Lines 623-635 for one array. *)
Definition insert_array {B} (a : list B) (n i : nat) (v : B) : option (list B) :=
  a' <- shift_up a i (n - i); put a' i v.

(** insertionSort_Sprimme, with non-NULL resNorms, flags and perm.
    currentShift (line 579) is only read for interior targets. *)
Definition insertionSort (t : target) (shifts : list V) (newVal : V)
           (evals : list V) (newNorm : N) (resNorms : list N) (newFlag : flag)
           (flags : list flag) (perm : list nat) (n initialShift : nat)
  : option (list V * list N * list flag * list nat) :=
  let cs := match t with
            | smallest | largest => None
            | _ => pick_shift shifts (initialShift + n)
            end in
  i <- scan t shifts initialShift cs newVal evals n;
  evals' <- insert_array evals n i newVal;
  resNorms' <- insert_array resNorms n i newNorm;
  perm' <- insert_array perm n i n;
  flags' <- insert_array flags n i newFlag;
  Some (evals', resNorms', flags', perm').

(** What the solver keeps about locked pairs. *)
Record locked := mkL {
  l_evals : list V; l_norms : list N; l_flags : list flag;
  l_perm : list nat; l_evecs : list X; l_num : nat }.

(** A pair proposed for locking: Ritz value, residual norm, flag after the
    last convergence check, Ritz vector. *)
Definition cand := (V * N * flag * X)%type.
Definition c_val (c : cand) : V := fst (fst (fst c)).
Definition c_norm (c : cand) : N := snd (fst (fst c)).
Definition c_flag (c : cand) : flag := snd (fst c).
Definition c_vec (c : cand) : X := snd c.

(** Write a list of values from position [k] on. *)
Fixpoint write_from {B} (a : list B) (k : nat) (l : list B) : option (list B) :=
  match l with
  | [] => Some a
  | x :: t => a' <- put a k x; write_from a' (S k) t
  end.

(** restart.c 962-969: pack the accepted values after the locked ones; [j]
    counts them; returns the array and the final flags. *)
Fixpoint fill_evals (evals : list V) (numLocked numEvals j : nat)
         (cs : list (V * flag)) : option (list V * list flag) :=
  match cs with
  | [] => Some (evals, [])
  | (v, f) :: t =>
      if negb (is_unconverged f) && (numLocked + j <? numEvals) then
        evals' <- put evals (numLocked + j) v;
        r <- fill_evals evals' numLocked numEvals (S j) t;
        Some (fst r, f :: snd r)
      else
        r <- fill_evals evals numLocked numEvals j t;
        Some (fst r, UNCONVERGED :: snd r)
  end.

(** restart.c 1135-1173: the locking loop; [k] is i-left, [n0] numLocked0. *)
Fixpoint lock_loop (t : target) (shifts : list V) (numEvals n0 k : nat)
         (flags : list flag) (st : locked) : option locked :=
  match flags with
  | [] => Some st
  | f :: fs =>
      if negb (is_unconverged f) && (l_num st <? numEvals) then
        resNorm <- get (l_norms st) (n0 + k);
        norms1 <- put (l_norms st) (l_num st) resNorm;
        eval <- get (l_evals st) (l_num st);
        x <- get (l_evecs st) (n0 + k);
        evecs1 <- put (l_evecs st) (l_num st) x;
        r <- insertionSort t shifts eval (l_evals st) resNorm norms1 f
               (l_flags st) (l_perm st) (l_num st) 0;
        let '(evals2, norms2, flags2, perm2) := r in
        lock_loop t shifts numEvals n0 (S k) fs
          (mkL evals2 norms2 flags2 perm2 evecs1 (S (l_num st)))
      else lock_loop t shifts numEvals n0 (S k) fs st
  end.

(** One restart with locking, as far as the locked pairs are concerned:
    Num_update_VWXR writes the candidate vectors and norms after the locked
    ones (restart.c 930-945), then 962-969 and 1135-1173. *)
Definition lock_round (t : target) (shifts : list V) (numEvals : nat)
           (st : locked) (cands : list cand) : option locked :=
  evecs1 <- write_from (l_evecs st) (l_num st) (map c_vec cands);
  norms1 <- write_from (l_norms st) (l_num st) (map c_norm cands);
  r <- fill_evals (l_evals st) (l_num st) numEvals 0
         (map (fun c => (c_val c, c_flag c)) cands);
  lock_loop t shifts numEvals (l_num st) 0 (snd r)
    (mkL (fst r) norms1 (l_flags st) (l_perm st) evecs1 (l_num st)).

(** A run: restarts one after another. *)
Fixpoint lock_run (t : target) (shifts : list V) (numEvals : nat)
         (st : locked) (rounds : list (list cand)) : option locked :=
  match rounds with
  | [] => Some st
  | cs :: rest => st' <- lock_round t shifts numEvals st cs;
                  lock_run t shifts numEvals st' rest
  end.

(** main_iter.c 399 and the allocations: perm is the identity; the other
    arrays have numEvals cells of arbitrary content. *)
Definition lock_init (numEvals : nat) (evals : list V) (norms : list N)
           (flags : list flag) (evecs : list X) : locked :=
  mkL evals norms flags (seq 0 numEvals) evecs 0.

(** main_iter.c 1355-1357: initSize = number of locked pairs. *)
Definition final_evecs (st : locked) : option (list X) :=
  permute_vecs (l_evecs st) (l_num st) (l_perm st).

End Lock.
