(** The vectors of the solver from step to step: src/eigs/main_iter.c and restart.c
    with the Rayleigh-Ritz extraction, in exact arithmetic, the Hermitian build and
    the implicit orthogonality (orth = primme_orth_implicit_I, VtBV = NULL).  Same
    conventions as ExtractModel and ReprojModel: arrays are functions, processes are
    one, the product with A and B of the whole vector; LAPACK and the
    orthogonalization are parameters.  What is decided from measured numbers (which
    pairs are kept, locked or have failed, the sizes, the corrections) is an argument
    of the step; the permutations are those of RestartModel (C13).  Squares of norms
    stand for the norms.  Without a mass matrix BV is V. *)
From Coq Require Import List Arith Bool Lia.
From Verif Require Import Base ProjModel MatAlg ExtractModel ReprojModel.
Import ListNotations.

Section Step.
Context {K : Type} (o : scal K) (L : kernels K).
Notation mx := (@mx K).
(** The problem: vectors have N entries; [nc] is numOrthoConst. *)
Context (N : nat) (A B : mx) (nc : nat).

(** Bortho_block, ortho.c: on the columns b1 .. b2-1 of V against the first m columns
    of evecs and the columns before b1: V, BV and the number of columns accepted. *)
Definition block_ortho := mx -> mx -> nat -> nat -> mx -> nat -> option (mx * mx * nat).
(** Bortho_local on one vector against the first b columns of a matrix with n rows:
    the new vector and R, ortho_coefficient_vectors 2377-2380. *)
Definition vec_ortho := nat -> mx -> nat -> (nat -> K) -> option ((nat -> K) * K).
Context (borth : block_ortho) (vorth : vec_ortho).

Record state := State {
  sn : nat;                 (** basisSize *)
  sV : mx; sW : mx; sBV : mx;
  sH : mx; sX : mx;         (** H and hVecs *)
  sth : nat -> K;           (** hVals *)
  slk : nat;                (** numLocked *)
  sE : mx;                  (** evecs: the constraints and then the locked vectors *)
  sval : nat -> K; sres : nat -> K  (** evals and resNorms, in the order of evecs (C12 for the sorting) *) }.

(** The residual of a column, Num_update_VWXR, and the square of its norm. *)
Definition resid (W BX : mx) (th : nat -> K) (j : nat) : nat -> K := fun r => ksub o (W r j) (kmul o (th j) (BX r j)).
Definition norm2 (x : nat -> K) : K := sum o N (fun r => kmul o (kconj o (x r)) (x r)).

(** Main_iter.c 671-701, 789-838 (expansion, b1 = basisSize), 1068-1108 (guesses
    after a restart), init_basis and 452-487 (b1 = 0, first time), 1300-1312 and
    452-487 (b1 = 0, after a failed verification): the block D is placed at b1,
    orthonormalized, multiplied by A and projected (update_projection: the upper
    triangle of the new columns), and the projected problem is solved. *)
Definition grow (t : target) (s : state) (b1 bs : nat) (D : mx) : option state :=
  let V1 : mx := fun r j => if (b1 <=? j) && (j <? b1 + bs) then D r (j - b1) else sV s r j in
  d <- borth V1 (sBV s) b1 (b1 + bs) (sE s) (nc + slk s) ;
  let '(V2, BV2, b) := d in
  let W2 : mx := fun r j => if (b1 <=? j) && (j <? b) then mul o N A V2 r j else sW s r j in
  let H2 : mx := fun i j => if (b1 <=? j) && (j <? b) && (i <=? j) then mul o N (adj o V2) W2 i j else sH s i j in
  p <- solve_H_RR o L t b H2 None ;
  Some (State b V2 W2 BV2 H2 (snd p) (fst p) (slk s) (sE s) (sval s) (sres s)).

(** Main_iter.c 436-487 when reset: only the projection is recomputed. *)
Definition reproject (t : target) (s : state) : option state :=
  let H2 : mx := fun i j => if (j <? sn s) && (i <=? j) then mul o N (adj o (sV s)) (sW s) i j else sH s i j in
  p <- solve_H_RR o L t (sn s) H2 None ;
  Some (State (sn s) (sV s) (sW s) (sBV s) H2 (snd p) (fst p) (slk s) (sE s) (sval s) (sres s)).

(** ortho_coefficient_vectors, restart.c 2363-2391: [skip] is the test of 2371, [small]
    the test of 2382.  The vectors of the previous iteration are orthonormalized one
    after another against the first [ip] coefficient vectors and those retained. *)
Fixpoint retain_vecs (skip : nat -> bool) (small : nat -> K -> bool) (prev : mx) (n ip limit cnt i retained : nat) (X : mx)
    : option (mx * nat) :=
  match cnt with
  | 0 => Some (X, retained)
  | S c =>
      if (retained <? limit) && (ip + retained <? n) then
        if skip i then retain_vecs skip small prev n ip limit c (i + 1) retained X
        else
          d <- vorth n X (ip + retained) (fun r => prev r i) ;
          let '(v, rr) := d in
          if small retained rr then retain_vecs skip small prev n ip limit c (i + 1) retained X
          else retain_vecs skip small prev n ip limit c (i + 1) (retained + 1)
                 (fun r j => if j =? ip + retained then v r else X r j)
      else Some (X, retained)
  end.

(** The restart without locking, restart.c 598-737 and 1614-1735: X are the
    coefficient vectors with those retained in their place, rs = ip + np the new
    size.  The converged vectors are also copied to evecs, where only the projectors
    of the correction equation read them. *)
Definition restart_soft (t : target) (changed : bool) (s : state) (X : mx) (ip np : nat) (perm hperm : nat -> nat)
    : option state :=
  let Y := cols X perm in
  let rs := ip + np in
  d <- restart_RR o L t true changed (sn s) rs np ip (sH s) Y (fun j => sth s (perm j)) hperm None ;
  let '(H2, w, X2) := d in
  Some (State rs (mul o (sn s) (sV s) Y) (mul o (sn s) (sW s) Y) (mul o (sn s) (sBV s) Y) H2 X2 w
              (slk s) (sE s) (sval s) (sres s)).

(** Restart.c 385-394: the vectors are put in the order of the values once
    everything has converged. *)
Definition finish_soft (hperm : nat -> nat) (s : state) : state :=
  State (sn s) (cols (sV s) hperm) (cols (sW s) hperm) (cols (sBV s) hperm) (sH s) (sX s) (sth s)
        (slk s) (sE s) (sval s) (sres s).

(** verify_norms, main_iter.c 1870-1881, and what is then copied to the caller,
    1286-1295: the i-th vector, value and residual norm. *)
Definition returned (s : state) : mx * (nat -> K) * (nat -> K) :=
  (sV s, sth s, fun i => norm2 (resid (sW s) (sBV s) (sth s) i)).

(** The indices of the pairs that failed and of those that passed the test when
    locked, restart.c 981-985. *)
Definition failed_of (ok : nat -> bool) (m : nat) : list nat := filter (fun i => negb (ok i)) (seq 0 m).
Definition passed_of (ok : nat -> bool) (m : nat) : list nat := filter ok (seq 0 m).

(** The restart with locking, restart.c 832-1180 and 1614-1735.  The new basis is what
    is kept and retained (left = ip + np columns) and the pairs that failed; those to
    be locked are the columns left .. left + numPacked - 1 of V Y, copied after the locked
    vectors (941-956), those that passed compacted (1106-1128). *)
Definition restart_lock (t : target) (changed : bool) (s : state) (X : mx) (ip np numPacked : nat) (ok : nat -> bool)
    (perm hperm : nat -> nat) : option state :=
  let Y := cols X perm in
  let th1 := fun j => sth s (perm j) in
  let left := ip + np in
  let V1 := mul o (sn s) (sV s) Y in
  let W1 := mul o (sn s) (sW s) Y in
  let BV1 := mul o (sn s) (sBV s) Y in
  let fl := failed_of ok numPacked in
  let pl := passed_of ok numPacked in
  let idx := fun k => if k <? left then k else left + nth (k - left) fl 0 in
  let rs := left + length fl in
  let m := nc + slk s in
  let E1 : mx := fun r j => if (m <=? j) && (j <? m + numPacked) then V1 r (left + (j - m)) else sE s r j in
  let E2 : mx := fun r j => if (m <=? j) && (j <? m + length pl) then E1 r (m + nth (j - m) pl 0) else E1 r j in
  let new := fun i => left + nth (i - slk s) pl 0 in
  let isnew := fun i => (slk s <=? i) && (i <? slk s + length pl) in
  d <- restart_RR o L t true changed (sn s) rs np ip (sH s) (cols Y idx) (fun j => th1 (idx j)) hperm None ;
  let '(H2, w, X2) := d in
  Some (State rs (cols V1 idx) (cols W1 idx) (cols BV1 idx) H2 X2 w
    (slk s + length pl) E2
    (fun i => if isnew i then th1 (new i) else sval s i)
    (fun i => if isnew i then norm2 (resid W1 BV1 th1 (new i)) else sres s i)).
End Step.
Arguments state : clear implicits.
Arguments block_ortho : clear implicits.
Arguments vec_ortho : clear implicits.
