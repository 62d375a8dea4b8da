(** Model of the control flow of main_iter, src/eigs/main_iter.c 176-1414: the
    three nested loops, the counters they test and what is reported at the end.

    The numerical work is not modelled here.  Every value a called routine decides
    is a field of [choice]; [legal] is what the other models of this development
    prove about those routines.  Calls that fail (CHKERR) leave main_iter at once
    with their error and are not modelled. *)
From Coq Require Import List Arith ZArith Bool Lia.
From Verif Require Import Base RestartModel.
Import ListNotations.

(** The members main_iter reads. *)
Record params := {
  p_locking : bool;
  p_maxMatvecs : nat;
  p_maxOuter : nat;          (* maxOuterIterations, 0 for no limit *)
  p_numEvals : nat;
  p_maxBasis : nat;          (* maxBasisSize *)
  p_maxBlock : nat;          (* maxBlockSize *)
  p_minRestart : nat;        (* minRestartSize *)
  p_n : nat;
  p_noc : nat;               (* numOrthoConst *)
  p_qr : bool;               (* numQR *)
  p_nshifts : nat;           (* numTargetShifts *)
  p_late : bool;             (* locking, no B, no preconditioner, no inner iterations (684-686) *)
  p_lockNow : bool;          (* the target and projection condition of 628-632 *)
  p_inner : bool;            (* the correction equation is solved iteratively *)
  p_B : bool;                (* massMatrixMatvec *)
  p_ortho : nat              (* products with B an orthogonalisation spends per vector, at most *)
}.

Inductive place : Type :=
| POuter    (* 445, the outermost loop *)
| PRestart  (* 501, the restarting loop *)
| PBasis    (* 517, the loop that expands the basis *)
| PAfter    (* 890, after that loop *)
| PFinish   (* 1197, after the restarting loop *)
| PDone.    (* clean *)

(** mv: stats.numMatvecs; outer: stats.numOuterIterations; nc: numConverged; nl:
    numLocked; bsz: basisSize; blk: blockSize; whole: wholeSpace; reset: reset > 0;
    prepared: candidates_prepared; est: stats.estimateResidualError may be positive;
    guesses: numGuesses; nextg: nextGuess; isz: initSize; nret: *numRet; ret: *ret. *)
Record st := St {
  pc : place;
  mv : nat;
  outer : nat;
  nc : nat;
  nl : nat;
  bsz : nat;
  blk : nat;
  whole : bool;
  reset : bool;
  prepared : bool;
  est : bool;
  guesses : nat;
  nextg : nat;
  isz : nat;
  nret : nat;
  ret : Z
}.
Definition set_pc (v : place) (s : st) : st :=
  St v (mv s) (outer s) (nc s) (nl s) (bsz s) (blk s) (whole s) (reset s) (prepared s) (est s) (guesses s) (nextg s) (isz s) (nret s) (ret s).
Definition set_mv (v : nat) (s : st) : st :=
  St (pc s) v (outer s) (nc s) (nl s) (bsz s) (blk s) (whole s) (reset s) (prepared s) (est s) (guesses s) (nextg s) (isz s) (nret s) (ret s).
Definition set_outer (v : nat) (s : st) : st :=
  St (pc s) (mv s) v (nc s) (nl s) (bsz s) (blk s) (whole s) (reset s) (prepared s) (est s) (guesses s) (nextg s) (isz s) (nret s) (ret s).
Definition set_nc (v : nat) (s : st) : st :=
  St (pc s) (mv s) (outer s) v (nl s) (bsz s) (blk s) (whole s) (reset s) (prepared s) (est s) (guesses s) (nextg s) (isz s) (nret s) (ret s).
Definition set_nl (v : nat) (s : st) : st :=
  St (pc s) (mv s) (outer s) (nc s) v (bsz s) (blk s) (whole s) (reset s) (prepared s) (est s) (guesses s) (nextg s) (isz s) (nret s) (ret s).
Definition set_bsz (v : nat) (s : st) : st :=
  St (pc s) (mv s) (outer s) (nc s) (nl s) v (blk s) (whole s) (reset s) (prepared s) (est s) (guesses s) (nextg s) (isz s) (nret s) (ret s).
Definition set_blk (v : nat) (s : st) : st :=
  St (pc s) (mv s) (outer s) (nc s) (nl s) (bsz s) v (whole s) (reset s) (prepared s) (est s) (guesses s) (nextg s) (isz s) (nret s) (ret s).
Definition set_whole (v : bool) (s : st) : st :=
  St (pc s) (mv s) (outer s) (nc s) (nl s) (bsz s) (blk s) v (reset s) (prepared s) (est s) (guesses s) (nextg s) (isz s) (nret s) (ret s).
Definition set_reset (v : bool) (s : st) : st :=
  St (pc s) (mv s) (outer s) (nc s) (nl s) (bsz s) (blk s) (whole s) v (prepared s) (est s) (guesses s) (nextg s) (isz s) (nret s) (ret s).
Definition set_prepared (v : bool) (s : st) : st :=
  St (pc s) (mv s) (outer s) (nc s) (nl s) (bsz s) (blk s) (whole s) (reset s) v (est s) (guesses s) (nextg s) (isz s) (nret s) (ret s).
Definition set_est (v : bool) (s : st) : st :=
  St (pc s) (mv s) (outer s) (nc s) (nl s) (bsz s) (blk s) (whole s) (reset s) (prepared s) v (guesses s) (nextg s) (isz s) (nret s) (ret s).
Definition set_guesses (v : nat) (s : st) : st :=
  St (pc s) (mv s) (outer s) (nc s) (nl s) (bsz s) (blk s) (whole s) (reset s) (prepared s) (est s) v (nextg s) (isz s) (nret s) (ret s).
Definition set_nextg (v : nat) (s : st) : st :=
  St (pc s) (mv s) (outer s) (nc s) (nl s) (bsz s) (blk s) (whole s) (reset s) (prepared s) (est s) (guesses s) v (isz s) (nret s) (ret s).
Definition set_isz (v : nat) (s : st) : st :=
  St (pc s) (mv s) (outer s) (nc s) (nl s) (bsz s) (blk s) (whole s) (reset s) (prepared s) (est s) (guesses s) (nextg s) v (nret s) (ret s).
Definition set_nret (v : nat) (s : st) : st :=
  St (pc s) (mv s) (outer s) (nc s) (nl s) (bsz s) (blk s) (whole s) (reset s) (prepared s) (est s) (guesses s) (nextg s) (isz s) v (ret s).
Definition set_ret (v : Z) (s : st) : st :=
  St (pc s) (mv s) (outer s) (nc s) (nl s) (bsz s) (blk s) (whole s) (reset s) (prepared s) (est s) (guesses s) (nextg s) (isz s) (nret s) v.

(** What the called routines decide in one step. *)
Record choice := {
  o_blk : nat;        (* blockSize from prepare_candidates, 557 *)
  o_rc : nat;         (* recentlyConverged from it *)
  o_reset : bool;     (* it sets reset (convergence.c 162-164) *)
  o_shift : bool;     (* targetShiftIndex < 0 or the QR shift is too far, 633-641 *)
  o_inner : nat;      (* operator applications of the inner solver, 661 *)
  o_gain : nat;       (* vectors added by the orthogonalisation, 693-707 *)
  o_bmv : nat;        (* products with B in it (ortho.c 422) *)
  o_pract : nat;      (* pairs found converged at 745-783 *)
  o_qrdef : bool;     (* 810: the new QR is deficient *)
  o_qrerr : bool;     (* 871: errors detected in the QR *)
  o_tol : bool;       (* 891: maxConvTol < estimateResidualError *)
  o_reset2 : bool;    (* prepare_candidates of 979 sets reset *)
  o_nc : nat;         (* numConverged, *)
  o_nl : nat;         (* numLocked, *)
  o_bsz : nat;        (* basisSize and *)
  o_blk2 : nat;       (* blockSize from the restart, 1079-1093 *)
  o_failed : nat;     (* pairs to be locked that failed their test in it *)
  o_gain2 : nat;      (* guesses that survive the orthogonalisation of 1129 *)
  o_bmv2 : nat;       (* products with B in it *)
  o_copied : nat;     (* *numRet from copy_back_candidates, 1209 *)
  o_ver : nat;        (* numConverged from verify_norms, 1267 *)
  o_bsz3 : nat;       (* basisSize from the orthogonalisation of 1318 *)
  o_bmv3 : nat        (* products with B in it *)
}.

(** 445-447, 502-505, 518-520 and 1250-1253. *)
Definition under (p : params) (s : st) : bool :=
  (mv s <? p_maxMatvecs p) && ((p_maxOuter p =? 0) || (outer s <? p_maxOuter p)).

(** 527-542; [avail] is at most the room left in the basis. *)
Definition by_shift (p : params) (s : st) : bool := p_qr p && (nc s + 1 <? p_nshifts p).
Definition max_recent (p : params) (s : st) : nat :=
  if by_shift p s then nc s - nl s + 1 else p_numEvals p - nc s.
Definition avail (p : params) (s : st) : nat :=
  Nat.min (Nat.min (if by_shift p s then 1 else p_maxBlock p) (p_maxBasis p - bsz s))
          (max_recent p s + 1).

(** 627-645. *)
Definition break_now (p : params) (o : choice) (s : st) : bool :=
  (p_numEvals p <=? nc s) ||
  (p_locking p && (nl s <? nc s) && p_lockNow p) ||
  o_shift o ||
  ((blk s =? 0) && (0 <? o_rc o)) ||
  ((nextg s - p_noc p <=? nc s) && (0 <? guesses s)).

(** 745-783: pairs counted after the orthogonalisation. *)
Definition late_pairs (p : params) (o : choice) (blk0 : nat) (s : st) : nat :=
  if p_late p && (0 <? nl s)
  then Nat.min (o_pract o) (Nat.min blk0 (p_numEvals p - nc s)) else 0.

(** 522-882: one turn of the loop that expands the basis. *)
Definition expand (p : params) (o : choice) (s : st) : st :=
  let s1 := set_prepared true (set_reset (reset s || o_reset o) (set_blk (o_blk o)
              (set_nc (nc s + o_rc o) (set_outer (S (outer s)) s)))) in
  if break_now p o s1 then set_pc PAfter s1
  else
    let s2 := set_mv (mv s1 + (if 0 <? blk s1 then o_inner o else 0) + o_bmv o) s1 in
    if o_gain o =? 0 then                                       (* 716-729 *)
      let s3 := if (blk s2 =? 0) && negb (reset s2) then set_whole true s2
                else set_reset true s2 in
      set_pc PAfter (set_blk 0 s3)
    else
      let s3 := set_blk (o_gain o) (set_nc (nc s2 + late_pairs p o (blk s2) s2) s2) in
      if p_late p && (nl s3 <? nc s3) && p_lockNow p then set_pc PAfter s3   (* 788-796 *)
      else
        let s4 := set_mv (mv s3 + o_gain o) s3 in                (* 800 *)
        if p_qr p && o_qrdef o then                              (* 810-814 *)
          set_pc PAfter (set_blk 0 (set_reset true s4))
        else
          let s5 := set_prepared false (set_blk 0 (set_bsz (bsz s4 + o_gain o) s4)) in
          if o_qrerr o then set_pc PAfter (set_reset true s5)    (* 871-876 *)
          else set_pc PBasis s5.

(** 1106-1170: the remaining initial guesses. *)
Definition add_guesses (p : params) (o : choice) (s : st) : st :=
  if 0 <? guesses s then
    let k := Z.to_nat (new_guesses (Z.of_nat (p_minRestart p)) (Z.of_nat (nc s))
               (Z.of_nat (nextg s)) (Z.of_nat (p_noc p)) (Z.of_nat (guesses s))
               (Z.of_nat (bsz s)) (Z.of_nat (p_maxBasis p)) (Z.of_nat (nl s))
               (Z.of_nat (p_n p))) in
    let g := Nat.min (o_gain2 o) k in
    let b := if p_B p then Nat.min (o_bmv2 o) (p_ortho p * k) else 0 in
    set_bsz (bsz s + g) (set_mv (mv s + b + g) (set_nextg (nextg s + k)
      (set_guesses (guesses s - k) s)))
  else s.

(** 890-1193: from the end of the expansion to the end of the restarting loop. *)
Definition after (p : params) (o : choice) (s : st) : st :=
  let r1 := reset s || ((p_n p - p_noc p - nl s <=? bsz s) && o_tol o) in
  if r1 then set_pc POuter (set_reset true s)                    (* 895, 1199 *)
  else if negb (prepared s) && o_reset2 o then set_pc POuter (set_reset true s)  (* 1071 *)
  else
    let s1 := set_est true (set_blk (o_blk2 o) (set_bsz (o_bsz o) (set_nl (o_nl o) (set_nc (o_nc o) s)))) in
    let s2 := add_guesses p o s1 in
    set_pc PRestart (set_isz (nc s2) s2).

(** 1197-1336: what is reported, or one more turn of the outermost loop. *)
Definition finish (p : params) (o : choice) (s : st) : st :=
  if p_locking p then
    let s1 := if (p_numEvals p <=? nc s) || (bsz s =? 0) then s       (* 1757 *)
              else set_nret (o_copied o) s in
    set_pc PDone
      (set_ret (if (nc s =? p_numEvals p) || whole s then 0%Z else (-3)%Z) s1)
  else
    let limit := negb (under p s) in
    let s1 := set_nc (o_ver o) s in
    if limit || (p_numEvals p <=? nc s1) || whole s then
      set_pc PDone
        (set_ret (if p_numEvals p <=? nc s1 then 0%Z else (-3)%Z)
          (set_isz (nc s1) (set_nret (p_numEvals p) s1)))
    else
      set_pc POuter (set_est false (set_reset false (set_nc 0
        (set_mv (mv s1 + o_bmv3 o + o_bsz3 o) (set_bsz (o_bsz3 o) s1))))).

Definition step (p : params) (o : choice) (s : st) : st :=
  match pc s with
  | POuter =>                                                        (* 445-492 *)
      if under p s then
        set_pc PRestart (set_est false (set_blk 0 (set_reset false
          (set_nc (nl s) (set_isz (nl s) s)))))
      else set_pc PDone s
  | PRestart =>                                                      (* 501-506 *)
      if (nc s <? p_numEvals p) && under p s && negb (whole s)
      then set_pc PBasis (set_prepared false s)
      else set_pc PFinish s
  | PBasis =>                                                        (* 517-520 *)
      if (bsz s <? p_maxBasis p) && under p s then expand p o s else set_pc PAfter s
  | PAfter => after p o s
  | PFinish => finish p o s
  | PDone => s
  end.

(** 366-419: the state when the loops start; the initial basis of [b] vectors took
    [m] products and left [g] guesses, the next one at column [x] (init_basis). *)
Definition start (p : params) (m b g x : nat) : st :=
  if p_numEvals p =? 0
  then St PDone m 0 0 0 b 0 false false false false g x 0 0 0%Z        (* 404-408 *)
  else St POuter m 0 0 0 b 0 false false false false g x 0 0 (-3)%Z.   (* 181, 397 *)
