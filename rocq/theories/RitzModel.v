(** Model of the ordering of the Ritz pairs, solve_H_RR_Sprimme,
    src/eigs/solve_projection.c 188-331 (Hermitian case).

    The LAPACK solve (line 217) is an input: eigenvalues in ascending order
    (of H, or of -H when target is largest) and their vectors, in some
    arbitrary type.  An out-of-range read gives [None]. *)
From Verif Require Import Base Values PermModel.
From Coq Require Import List Arith Bool.
Import ListNotations.

Section Ritz.
Context {V : Type} (o : vops V).

(** Lines 252-253 and 287-288: index of the first value >= s, else the size. *)
Fixpoint first_geq (vals : list V) (s : V) : nat :=
  match vals with
  | [] => 0
  | x :: t => if vleb o s x then 0 else S (first_geq t s)
  end.

(** Lines 270-271: j+1 where j is the last index with value <= s, else 0;
    [k] is how many positions are left to scan downwards. *)
Fixpoint last_leq1 (vals : list V) (s : V) (k : nat) : option nat :=
  match k with
  | 0 => Some 0
  | S j =>
      x <- get vals j;
      if vleb o x s then Some (S j) else last_leq1 vals s j
  end.

(** Lines 290-306: two pointers moving away from the shift; [i1] is i+1. *)
Fixpoint abs_loop (fuel : nat) (vals : list V) (s : V) (i1 j : nat)
  : option (list nat) :=
  match fuel with
  | 0 => None
  | S f =>
      let n := length vals in
      match i1 with
      | S i =>
          if j <? n then
            a <- get vals i;
            b <- get vals j;
            if vltb o (vdist o s a) (vdist o s b)
            then r <- abs_loop f vals s i j; Some (i :: r)
            else r <- abs_loop f vals s i1 (S j); Some (j :: r)
          else Some (rev (seq 0 i1))
      | 0 => Some (seq j (n - j))
      end
  end.

(** Lines 310-318: two pointers moving towards each other; [i1] is i+1. *)
Fixpoint largest_loop (fuel : nat) (vals : list V) (s : V) (i1 j : nat)
  : option (list nat) :=
  match fuel with
  | 0 => None
  | S f =>
      if j <? i1 then
        a <- get vals (i1 - 1);
        b <- get vals j;
        if vltb o (vdist o s b) (vdist o s a)
        then r <- largest_loop f vals s (i1 - 1) j; Some ((i1 - 1) :: r)
        else r <- largest_loop f vals s i1 (S j); Some (j :: r)
      else Some []
  end.

(** Lines 248-320: the permutation for an interior target. *)
Definition permu_of (t : target) (vals : list V) (s : V) : option (list nat) :=
  let n := length vals in
  match t with
  | closest_geq =>
      let j := first_geq vals s in Some (seq j (n - j) ++ seq 0 j)
  | closest_leq =>
      j1 <- last_leq1 vals s n;
      Some (rev (seq 0 j1) ++ rev (seq j1 (n - j1)))
  | closest_abs =>
      let j := first_geq vals s in abs_loop (S n) vals s j j
  | largest_abs => largest_loop (S n) vals s n 0
  | smallest | largest => None
  end.

(** Lines 245-246: targetShifts[min(numTargetShifts-1, numConverged)]. *)
Definition pick_shift (shifts : list V) (numConverged : nat) : option V :=
  match length shifts with
  | 0 => None
  | S k => get shifts (Nat.min k numConverged)
  end.

(** Lines 224-327. *)
Definition order_ritz {B} (t : target) (shifts : list V) (numConverged : nat)
           (vals : list V) (vecs : list B) : option (list V * list B) :=
  match t with
  | smallest => Some (vals, vecs)
  | largest => Some (map (vneg o) vals, vecs)
  | _ =>
      match vals with
      | [] => Some (vals, vecs)                 (* basisSize == 0, line 193 *)
      | _ =>
          s <- pick_shift shifts numConverged;
          permu <- permu_of t vals s;
          vals' <- permute_vecs vals (length vals) permu;
          vecs' <- permute_vecs vecs (length vals) permu;
          Some (vals', vecs')
      end
  end.

End Ritz.
