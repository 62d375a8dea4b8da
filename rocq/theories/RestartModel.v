(** Model of the bookkeeping of a restart (src/eigs/restart.c): how many pairs
    count as converged (227-242), the sizes of the restarted basis (251-313),
    how many previous vectors are retained (2361-2387), the reordering of soft
    locking (619-719) and of locking (880-912, 983-1033), and the
    pairing of new and old coefficient vectors, map_vecs
    (src/eigs/solve_projection.c 1009-1064).

    Only indices, flags and sizes are kept; the products V*hVecs are not.
    Arrays are checked: [None] is an access out of range. *)
From Verif Require Import Base Values SelectModel.
From Coq Require Import List Arith ZArith Bool.
Import ListNotations.

(* ------------------------------------------------------------------ *)
(** restart.c 227-242: drop the SKIP_UNTIL_RESTART flags and count; the result
    counts from numLocked, here [c] is numConverged - numLocked. *)
Definition eligible (i numEvals numLocked : nat) (t : target) : bool :=
  (i <? numEvals - numLocked) || one_sided t.

Fixpoint restart_count (flags : list flag) (i numEvals numLocked c : nat) (t : target)
  : list flag * nat :=
  match flags with
  | [] => ([], c)
  | f :: fs =>
      match f with
      | SKIP_UNTIL_RESTART =>
          let r := restart_count fs (S i) numEvals numLocked c t in (UNCONVERGED :: fst r, snd r)
      | _ =>
          let c' := if negb (is_unconverged f) && (numLocked + c <? numEvals) &&
                       eligible i numEvals numLocked t then S c else c in
          let r := restart_count fs (S i) numEvals numLocked c' t in (f :: fst r, snd r)
      end
  end.

(* ------------------------------------------------------------------ *)
Record rst_in := {
  r_locking : bool;
  r_basisSize : Z;  r_maxBasisSize : Z;  r_maxBlockSize : Z;
  r_minRestartSize : Z;  r_maxPrevRetain : Z;
  r_n : Z;  r_numOrthoConst : Z;  r_numEvals : Z;  r_numGuesses : Z;
  r_numConverged : Z;  r_numLocked : Z }.

(** restart.c 251-265. *)
Definition whole_space (a : rst_in) : bool :=
  negb (r_locking a) && (r_n a <=? r_basisSize a + r_numLocked a + r_numOrthoConst a)%Z.
Definition not_full (a : rst_in) : bool :=
  (r_basisSize a <=? r_maxBasisSize a - r_maxBlockSize a)%Z.

Definition first_sizes (a : rst_in) : Z * Z :=
  if whole_space a then (r_basisSize a, 0%Z)
  else if not_full a then (r_basisSize a, 0%Z)
  else (Z.min (r_basisSize a) (r_minRestartSize a), r_maxPrevRetain a).

(** restart.c 275: make room for initial guesses. *)
Definition room_guesses (a : rst_in) (rs : Z) : Z :=
  (rs - Z.min (Z.min (r_numGuesses a) (r_numConverged a - r_numLocked a)) rs)%Z.

(** restart.c 282-283. *)
Definition room_locked (a : rst_in) (rs : Z) : Z :=
  if r_locking a then Z.min rs (r_basisSize a - (r_numConverged a - r_numLocked a))%Z else rs.

(** restart.c 290-293. *)
Definition prev_limit (a : rst_in) (rs npr : Z) : Z :=
  Z.max 0 (Z.min (Z.min npr (r_maxBasisSize a - rs - 1))
                 (r_n a - rs - r_numConverged a - r_numOrthoConst a)).

(** restartSize and numPrevRetained before retaining, and the position of the
    retained vectors (308-311). *)
Definition restart_sizes (a : rst_in) : Z * Z :=
  let rs := room_locked a (room_guesses a (fst (first_sizes a))) in
  (rs, prev_limit a rs (snd (first_sizes a))).
Definition prev_index (a : rst_in) (rs : Z) : Z :=
  if r_locking a then (rs + r_numConverged a - r_numLocked a)%Z else rs.

(** restart.c 2361-2387: [keeps] tells for each previous vector whether it is
    kept (not of a converged pair, not linearly dependent); returns how many
    are retained. *)
Fixpoint retain (keeps : list bool) (retained limit index basisSize : Z) : Z :=
  match keeps with
  | [] => retained
  | b :: t =>
      if ((retained <? limit) && (index + retained <? basisSize))%Z then
        retain t (if b then retained + 1 else retained)%Z limit index basisSize
      else retained
  end.

(** main_iter.c 1106-1120: how many of the remaining initial guesses are added
    after the restart. *)
Definition new_guesses (minRestartSize numConverged nextGuess numOrthoConst numGuesses
                        basisSize maxBasisSize numLocked n : Z) : Z :=
  let k1 := Z.max 0 (Z.min (minRestartSize + numConverged - (nextGuess - numOrthoConst)) numGuesses) in
  let k2 := Z.max 0 (Z.min (basisSize + k1) maxBasisSize - basisSize) in
  Z.max 0 (Z.min (basisSize + k2 + numOrthoConst + numLocked) n
           - numOrthoConst - numLocked - basisSize).

(* ------------------------------------------------------------------ *)
(** restart_soft_locking, restart.c 620-634: [moved i] tells whether
    |hVals[i]-evals[i]| > resNorms[i]; positions [i], [cnt] of them. *)
Fixpoint soft_count (flags : list flag) (moved : nat -> bool) (cnt i nc : nat)
  : option (list flag * nat) :=
  match cnt with
  | 0 => Some (flags, nc)
  | S c =>
      f <- get flags i;
      if negb (is_unconverged f) && moved i then
        flags' <- put flags i UNCONVERGED;
        soft_count flags' moved c (S i) nc
      else soft_count flags moved c (S i) (if is_unconverged f then nc else S nc)
  end.

(** restart.c 658-662: *ievSize. *)
Definition soft_ievSize (ievSize maxBlockSize numEvals numConverged maxBasisSize
                         restartSize basisSize minRestartSize : Z) : Z :=
  Z.max 0 (Z.min (Z.min (Z.min (Z.min (Z.min ievSize maxBlockSize)
     (numEvals - numConverged + 1)) (maxBasisSize - restartSize))
     (basisSize - numConverged)) (minRestartSize - numConverged)).

(** restart.c 666-673: [j], [k] the counters, [rp] restartPerm. *)
Fixpoint soft_perm (flags : list flag) (nc cnt i j k : nat) (rp : list nat) : option (list nat) :=
  match cnt with
  | 0 => Some rp
  | S c =>
      f <- get flags i;
      if (nc <=? k) || is_unconverged f then
        rp' <- put rp (nc + j) i; soft_perm flags nc c (S i) (S j) k rp'
      else
        rp' <- put rp k i; soft_perm flags nc c (S i) j (S k) rp'
  end.

(** restart.c 711-712: hVecsPerm[restartPerm[i]] = i. *)
Fixpoint invert_loop (p : list nat) (cnt i : nat) (h : list nat) : option (list nat) :=
  match cnt with
  | 0 => Some h
  | S c => k <- get p i; h' <- put h k i; invert_loop p c (S i) h'
  end.

(** restart.c 716-719: iev[i] = j for the j < restartSize with
    hVecsPerm[j] == numConverged+i (the last one found). *)
Fixpoint find_back (h : list nat) (v cnt j : nat) (acc : option nat) : option (option nat) :=
  match cnt with
  | 0 => Some acc
  | S c => x <- get h j; find_back h v c (S j) (if x =? v then Some j else acc)
  end.

Fixpoint soft_iev (h : list nat) (nc restartSize cnt i : nat) (iev : list nat) : option (list nat) :=
  match cnt with
  | 0 => Some iev
  | S c =>
      r <- find_back h (nc + i) restartSize 0 None;
      match r with
      | Some j => iev' <- put iev i j; soft_iev h nc restartSize c (S i) iev'
      | None => soft_iev h nc restartSize c (S i) iev
      end
  end.

(* ------------------------------------------------------------------ *)
(** restart_locking, restart.c 897-912; [left] = restartSize + numPrevRetained,
    [np] counts numPacked, [total] is min(numConverged, numEvals) - numLocked. *)
Fixpoint lock_perm (flags : list flag) (numEvals numLocked : nat) (t : target)
         (left total cnt i k np : nat) (rp : list nat) : option (list nat * nat) :=
  match cnt with
  | 0 => Some (rp, np)
  | S c =>
      f <- get flags i;
      if negb (is_unconverged f) && (np <? numEvals - numLocked) && eligible i numEvals numLocked t then
        rp' <- put rp (left + np) i; lock_perm flags numEvals numLocked t left total c (S i) k (S np) rp'
      else if k <? left then
        rp' <- put rp k i; lock_perm flags numEvals numLocked t left total c (S i) (S k) np rp'
      else
        rp' <- put rp (total + k) i; lock_perm flags numEvals numLocked t left total c (S i) (S k) np rp'
  end.

(** restart.c 880-888: the room for the next block. *)
Definition lock_maxBlock (restartSize maxBlockSize numEvals numConverged : Z) : Z :=
  Z.max 0 (Z.min (Z.min restartSize maxBlockSize) (numEvals - numConverged + 1)).
Definition lock_sizeNorms (maxBlock maxBasisSize restartSize npr numConverged numLocked : Z) : Z :=
  Z.max 0 (Z.min maxBlock (maxBasisSize - restartSize - npr - numConverged + numLocked)).

(** restart.c 983-986: failed pairs first; [fl] are the flags of the pairs to
    be locked. *)
Fixpoint failed_first (fl : list flag) (i : nat) : list nat :=
  match fl with
  | [] => []
  | f :: t => if is_unconverged f then i :: failed_first t (S i) else failed_first t (S i)
  end.
Fixpoint passed_next (fl : list flag) (i : nat) : list nat :=
  match fl with
  | [] => []
  | f :: t => if is_unconverged f then passed_next t (S i) else i :: passed_next t (S i)
  end.
Definition ifailed (fl : list flag) : list nat := failed_first fl 0 ++ passed_next fl 0.

(** restart.c 1008-1027: merge of the restarted pairs (0..idx-1) with the
    failed ones (left..left+failed-1) by original position. *)
Fixpoint merge_perm (rp ifl : list nat) (idx left failed fuel i j k : nat) (h : list nat)
  : option (list nat * nat) :=
  match fuel with
  | 0 => None
  | S fu =>
      if (i <? idx) || (j <? failed) then
        takes_candidate <-
          (if i <? idx then
             if failed <=? j then Some true
             else
               a <- get rp i;
               fj <- get ifl j;
               b <- get rp (left + fj);
               Some (a <? b)
           else Some false);
        if (takes_candidate : bool) then
          h' <- put h k i; merge_perm rp ifl idx left failed fu (S i) j (S k) h'
        else
          h' <- put h k (left + j); merge_perm rp ifl idx left failed fu i (S j) (S k) h'
      else Some (h, k)
  end.

(** restart.c 1032: the retained vectors follow. *)
Fixpoint append_prev (idx npr i k : nat) (h : list nat) : option (list nat) :=
  match npr with
  | 0 => Some h
  | S c => h' <- put h k (i + idx); append_prev idx c (S i) (S k) h'
  end.

(** hVecsPerm of restart_locking up to position restartSize. *)
Definition lock_hVecsPerm (rp ifl : list nat) (idx npr failed : nat) (h : list nat)
  : option (list nat) :=
  let left := idx + npr in
  r <- merge_perm rp ifl idx left failed (S (idx + failed)) 0 0 0 h;
  append_prev idx npr 0 (snd r) (fst r).

(* ------------------------------------------------------------------ *)
(** map_vecs: [ip i j] is |V[j]'*W[i]|, [nrm j] the norm of V[j]; [gt a b n]
    is the test a > b * n, where [None] stands for the initial ipmax = -1. *)
Section MapVecs.
Context {R : Type} (ip : nat -> nat -> R) (nrm : nat -> R)
        (gt : R -> option R -> R -> bool) (quot : R -> R -> R).

(** solve_projection.c 1035-1051. *)
Fixpoint map_search (p : list nat) (i cnt j : nat) (ipmax : option R) (jmax : option nat)
  : option nat :=
  match cnt with
  | 0 => jmax
  | S c =>
      if gt (ip i j) ipmax (nrm j) && negb (existsb (Nat.eqb j) p) then
        map_search p i c (S j) (Some (quot (ip i j) (nrm j))) (Some j)
      else map_search p i c (S j) ipmax jmax
  end.

(** solve_projection.c 1031-1059, n0 = 0: entries [i], [cnt] of them; [p] holds
    p[0..i-1]. *)
Fixpoint map_vecs (nV cnt i : nat) (p : list nat) : list nat :=
  match cnt with
  | 0 => p
  | S c =>
      map_vecs nV c (S i)
        (p ++ [match map_search p i nV 0 None None with Some j => j | None => i end])
  end.
End MapVecs.
