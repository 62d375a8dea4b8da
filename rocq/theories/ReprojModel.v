(** The projected problem after a restart: restart_RR, restart_refined and
    restart_harmonic of src/eigs/restart.c, for a basis V that has been replaced by
    V hVecs.  Same simplifications as ExtractModel (exact arithmetic, arrays as
    functions, the Hermitian build).  The updates of V, W, Q and of the matrices of
    the explicit mode are Num_update_VWXR: here products with the coefficient
    vectors.  The permutations and sizes come from restart() (RestartModel). *)
From Coq Require Import List Arith Bool Lia.
From Verif Require Import Base ProjModel MatAlg ExtractModel.
Import ListNotations.

Section Reproj.
Context {K : Type} (o : scal K) (L : kernels K).
Notation mx := (@mx K).

(** Bortho_local on the columns b1 .. b2-1 of a matrix with m rows, with the R
    factor: the new columns and R. *)
Definition qr_local := nat -> mx -> mx -> nat -> nat -> option mx -> option (mx * mx).
Context (qr : qr_local).

(** The columns i .. of a matrix and the block at (i, j). *)
Definition from (i j : nat) (A : mx) : mx := fun r c => A (i + r) (j + c).
Definition sub_block (i : nat) (A : option mx) : option mx := option_map (from i i) A.

(** ** restart_RR, restart.c 1614-1735 *)

(** H for the restarted basis, 1625-1657, implicit mode: ip and np are
    indexOfPreviousVecs and numPrevRetained, rs is restartSize. *)
Definition rr_H (n rs np ip : nat) (H Y : mx) (vals : nat -> K) : mx :=
  let sub := compute_submatrix o np n (from 0 ip Y) H in
  fun i j =>
    if j <? ip then (if i <? rs then (if i =? j then vals j else k0 o) else H i j)
    else if j <? ip + np then
      (if i <? ip then k0 o else if i <? ip + np then sub (i - ip) (j - ip) else H i j)
    else if j <? rs then (if i <? rs then (if i =? j then vals j else k0 o) else H i j)
    else H i j.

(** The first column of hVecsPerm equal to ip, 1694-1699. *)
Fixpoint find_index (perm : nat -> nat) (ip i cnt rs : nat) : nat :=
  match cnt with
  | 0 => rs
  | S c => if perm i =? ip then i else find_index perm ip (i + 1) c rs
  end.

(** [changed] is the test of 1668-1674 (see [rr_changed]); [None] is also a failed
    assertion. *)
Definition restart_RR (t : target) (implicit changed : bool) (n rs np ip : nat) (H Y : mx)
    (vals : nat -> K) (perm : nat -> nat) (VtBV : option mx) : option (mx * (nat -> K) * mx) :=
  let H1 := if implicit then rr_H n rs np ip H Y vals else H in
  if changed then
    p <- solve_H_RR o L t rs H1 VtBV ;
    Some (H1, fst p, snd p)
  else
    let oi := find_index perm ip 0 rs rs in
    if (oi =? rs) && (ip <? rs) then None
    else
      let X0 : mx := fun i j => if i =? perm j then k1 o else k0 o in
      let w0 := fun j => vals (perm j) in
      if np =? 0 then Some (H1, w0, X0)
      else
        p <- solve_H_RR o L t np (from ip ip H1) (sub_block ip VtBV) ;
        Some (H1,
              (fun j => if (oi <=? j) && (j <? oi + np) then fst p (j - oi) else w0 j),
              (fun i j => if (ip <=? i) && (i <? ip + np) && ((oi <=? j) && (j <? oi + np))
                          then snd p (i - ip) (j - oi) else X0 i j)).

(** ** restart_refined, restart.c 1838-2154 *)
Record refined := Refined { rH : mx; rQ : mx; rR : mx; rhU : mx; rhVecs : mx; rVals : nat -> K;
                            rSVals : nat -> K; rArb : nat; rRot : mx }.

(** restartPerm0, 1903-1907 *)
Definition perm0 (restartPerm perm : nat -> nat) : nat -> nat := fun i => restartPerm (perm i).
(** newNumArbitraryVecs, 1914-1918 *)
Fixpoint count_arb (p : nat -> nat) (numArb n : nat) : nat :=
  match n with 0 => 0 | S m => count_arb p numArb m + (if p m <? numArb then 1 else 0) end.
(** mhVecsRot0, 1963-1964 *)
Fixpoint max_row (p : nat -> nat) (numArb n : nat) : nat :=
  match n with 0 => numArb | S m => Nat.max (max_row p numArb m) (p m + 1) end.

(** diag(hSVals) hVecsRot in the kept columns, 1967-1985. *)
Definition rot0 (Rot : mx) (s : nat -> K) (p : nat -> nat) (numArb newArb : nat) : mx :=
  fun r i => if i <? newArb then (if r <? numArb then kmul o (Rot r (p i)) (s r) else k0 o)
             else if r =? p i then s (p i) else k0 o.

(** The columns that are known to be diagonal, 2019-2026. *)
Definition zero_diag (R : mx) (s : nat -> K) (p : nat -> nat) (numArb newArb nRegular : nat) : mx :=
  fun r i => if (newArb <=? i) && (i <? nRegular) && (numArb <=? p i)
             then (if r =? i then s (p i) else if r <=? i then k0 o else R r i) else R r i.
(** The rows of the kept vectors in the retained columns, 2034-2038. *)
Definition zero_prev (R : mx) (cond : bool) (nRegular np : nat) : mx :=
  fun r i => if cond && (r <? nRegular) && ((nRegular <=? i) && (i <? nRegular + np)) then k0 o else R r i.

(** The new number of arbitrary vectors, 2117-2123. *)
Fixpoint last_moved (perm : nat -> nat) (i cnt arb : nat) : nat :=
  match cnt with 0 => arb | S c => last_moved perm (i + 1) c (if perm i =? i then arb else i + 1) end.

(** [inv] is the inverse of hVecsPerm (2092-2099).  [changed]: 1883-1887; then the
    factorization is rebuilt by update_Q from the new V and W with the new shift
    (1889-1902), the coefficient vectors are those of solve_H_Ref. *)
Definition restart_refined (t : target) (implicit : bool) (n rs np ip ipBefore : nat)
    (H Q R hU0 Y : mx) (vals s : nat -> K) (restartPerm perm inv : nat -> nat) (numArb : nat) (Rot : mx)
    (QtQ fQtQ QtQ' VtBV : option mx) : option refined :=
  let H1 := if implicit then compute_submatrix o rs n Y H else H in
  let p := perm0 restartPerm perm in
  let nRegular := rs - np in
  let newArb := count_arb p numArb nRegular in
  if negb (forallb (fun i => p i <? n) (seq 0 rs)) then None
  else if negb (forallb (fun i => p i <? numArb) (seq 0 newArb)) then None
  else
  let RPrev := mul o n R (from 0 ip Y) in
  let m := max_row p numArb nRegular in
  d <- qr m (rot0 Rot s p numArb newArb) (fun _ _ => k0 o) 0 nRegular QtQ ;
  let '(Z, R1) := d in
  let U1 := mul o m hU0 Z in
  U2 <- match QtQ with
        | None => Some U1
        | Some _ => rsolve L nRegular (match fQtQ with Some f => f | None => one o end) U1
        end ;
  let U3 : mx := fun r i => if i <? nRegular then U2 r i else RPrev r (i - nRegular) in
  d <- qr n U3 R1 nRegular (nRegular + np) QtQ ;
  let '(U4, R2) := d in
  let R3 := zero_diag R2 s p numArb newArb nRegular in
  let R4 := zero_prev R3 (numArb <=? ipBefore) nRegular np in
  let Q' := mul o n Q U4 in
  e <- solve_H_Ref o L t rs H1 R4 QtQ' VtBV ;
  let R5 := cols R4 inv in
  let arb' := if numArb <=? ipBefore then last_moved perm newArb (rs - newArb) newArb else rs in
  let hv := hVecs e in
  Some (Refined H1 Q' R5 (hU e)
    (fun i j => if j <? arb' then (if i =? perm j then k1 o else k0 o) else hv i j)
    (fun j => vals (perm j)) (hSVals e) arb'
    (fun i j => if (j <? arb') && (i <? rs) then kconj o (hv j i) else k0 o)).

(** ** The factorization from scratch: restart_refined 1889-1902 and restart_harmonic 2300-2308 *)
Definition rebuild (f : ortho K) (N rs : nat) (BV W Q R : mx) (tau : K) : option (mx * mx) :=
  d <- update_Q o f N BV W Q R tau 0 rs 0 ;
  let '(Q', R', nQ) := d in
  if nQ =? rs then Some (Q', R') else None.

(** restart_harmonic, restart.c 2255-2330: H, the factorization with the shift of
    the next pair, QtV (update_projection, 0 /*unsymmetric*/: all of Q'V) and the
    harmonic vectors. *)
Definition restart_harmonic (f : ortho K) (t : target) (implicit : bool) (N n rs : nat) (H Y V BV W Q R : mx)
    (tau : K) (QtQ VtBV : option mx) (sv : nat -> K) : option (mx * mx * mx * mx * extracted K) :=
  let H1 := if implicit then compute_submatrix o rs n Y H else H in
  d <- rebuild f N rs BV W Q R tau ;
  let '(Q', R') := d in
  let QtV := mul o N (adj o Q') V in
  e <- solve_H_Harm o L t rs H1 QtV R' QtQ VtBV sv ;
  Some (H1, Q', R', QtV, e).
End Reproj.
Arguments qr_local : clear implicits.
Arguments refined : clear implicits.

(** ** When the shift has changed *)

(** Comparisons of doubles: |a - b|, a > b and a number is not zero. *)
Record reals (V : Type) := Reals { dist : V -> V -> V; gt : V -> V -> bool; nonzero : V -> bool;
                                   rzero : V; rone : V }.
Arguments dist {V}. Arguments gt {V}. Arguments nonzero {V}. Arguments rzero {V}. Arguments rone {V}.

Section Changed.
Context {V : Type} (r : reals V).
Definition of_bool (b : bool) : V := if b then rone r else rzero r.

(** restart_RR, restart.c 1670-1674: the closing parenthesis is before the
    comparison, so that the truth value of (index < 0 || distance) is compared with
    the threshold.  The index is negative for [None]; numConverged-th shift, or the last. *)
Definition rr_changed (index : option nat) (shifts : list V) (numConverged : nat) (threshold : V) : option bool :=
  b <- get shifts (Nat.min (length shifts - 1) numConverged) ;
  match index with
  | None => Some (gt r (of_bool true) threshold)
  | Some i => a <- get shifts i ; Some (gt r (of_bool (nonzero r (dist r a b))) threshold)
  end.

(** restart_refined, restart.c 1883-1887. *)
Definition ref_changed (index : option nat) (shifts : list V) (numConverged : nat) (threshold : V) : option bool :=
  b <- get shifts (Nat.min (length shifts - 1) numConverged) ;
  match index with
  | None => Some true
  | Some i => a <- get shifts i ; Some (gt r (dist r a b) threshold)
  end.
End Changed.
