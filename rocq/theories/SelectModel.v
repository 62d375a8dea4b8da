(** Model of the choice of the pairs to expand: prepare_candidates
    (src/eigs/main_iter.c 1470-1709), of the limits its caller sets
    (main_iter.c 527-542), and of the reordering that follows it before a
    restart (main_iter.c 1010-1041).

    Kept: the arrays flags, basisNorms, iev, blockNorms, the columns of X (R and
    BX are moved by the same copies), the counters and the limits.  Oracles:
    the outcome of the convergence check of each round ([verdict], see
    ConvModel), the norm of the residual of a pair ([resid]), its vector
    ([vec]), and whether line 1561-1564 finds the pair on the wrong side
    ([side]).  All may depend on the round.  Not modelled: smallestResNorm,
    evals/resNorms of soft locking, the monitor, estimates of norms.
    Arrays are checked; [None] is an access out of range or exhausted fuel. *)
From Verif Require Import Base Values PermModel.
From Coq Require Import List Arith ZArith Bool.
Import ListNotations.

Section Select.
Context {N X : Type}.

(** Fixed data of one call.  [q_cap] is the argument maxBlockSize: flagsBlock
    and hValsBlock0 have that many cells (lines 1495-1498). *)
Record sel_in := {
  q_basisSize : nat;  q_cap : nat;
  q_numEvals : Z;  q_numLocked : Z;  q_numConverged : Z;  q_remained : Z;
  q_target : target }.

Record sel := mkSel {
  s_flags : list flag;  s_bnorms : list N;  s_iev : list nat;
  s_norms : list N;  s_xs : list X;
  s_bs : nat;          (* *blockSize *)
  s_rc : Z;            (* *recentlyConverged *)
  s_max : Z;           (* maxBlockSize *)
  s_next : nat         (* lasti + 1 *) }.

Definition one_sided (t : target) : bool :=
  match t with closest_geq | closest_leq => true | _ => false end.

Section Call.
Variable q : sel_in.
Variable verdict : nat -> nat -> flag -> N -> flag * N.   (* round, pair *)
Variable resid : nat -> nat -> N.
Variable vec : nat -> X.
Variable side : nat -> nat -> bool.
Variable floor : N -> N.      (* max(., stats.estimateResidualError) *)

(** Lines 1536-1544: flagsBlock and blockNorms after check_convergence. *)
Fixpoint check_block (r : nat) (flags : list flag) (iev : list nat)
         (norms : list N) (j cnt : nat) : option (list flag * list N) :=
  match cnt with
  | 0 => Some ([], norms)
  | S c =>
      p <- get iev j;
      f <- get flags p;
      nm <- get norms j;
      let v := verdict r p f nm in
      norms' <- put norms j (snd v);
      z <- check_block r flags iev norms' (S j) c;
      Some (fst v :: fst z, snd z)
  end.

(** Lines 1550-1620: the pairs of the block, [blki] walking over them. *)
Fixpoint inner (r : nat) (fb : list flag) (blki : nat) (s : sel) : option sel :=
  match fb with
  | [] => Some s
  | f :: fs =>
      if (Z.of_nat (s_bs s) <? s_max s)%Z then
        p <- get (s_iev s) blki;
        nm <- get (s_norms s) blki;
        flags' <- put (s_flags s) p f;
        bn' <- put (s_bnorms s) p nm;
        if side r p then
          inner r fs (S blki)
            (mkSel flags' bn' (s_iev s) (s_norms s) (s_xs s) (s_bs s) (s_rc s) (s_max s) (S p))
        else if negb (is_unconverged f) && (s_rc s <? q_remained q)%Z &&
                ((Z.of_nat p <? q_numEvals q - q_numLocked q)%Z || one_sided (q_target q)) then
          let rc := (s_rc s + 1)%Z in
          inner r fs (S blki)
            (mkSel flags' bn' (s_iev s) (s_norms s) (s_xs s) (s_bs s) rc
               (Z.min (s_max s) (q_numEvals q + 1 - rc - q_numConverged q)) (S p))
        else if is_unconverged f then
          norms' <- put (s_norms s) (s_bs s) nm;
          iev' <- put (s_iev s) (s_bs s) p;
          x <- get (s_xs s) blki;
          xs' <- put (s_xs s) (s_bs s) x;
          inner r fs (S blki)
            (mkSel flags' bn' iev' norms' xs' (S (s_bs s)) (s_rc s) (s_max s) (S p))
        else
          inner r fs (S blki)
            (mkSel flags' bn' (s_iev s) (s_norms s) (s_xs s) (s_bs s) (s_rc s) (s_max s) (S p))
      else Some s
  end.

(** Lines 1633-1635: [cnt] positions from [i] on. *)
Fixpoint find_next (flags : list flag) (mx : Z) (cnt i blki : nat) (iev : list nat)
  : option (list nat * nat) :=
  match cnt with
  | 0 => Some (iev, blki)
  | S c =>
      if (Z.of_nat blki <? mx)%Z then
        f <- get flags i;
        if is_unconverged f then
          iev' <- put iev blki i;
          find_next flags mx c (S i) (S blki) iev'
        else find_next flags mx c (S i) blki iev
      else Some (iev, blki)
  end.

(** Lines 1656-1683: X, R and blockNorms of the new candidates. *)
Fixpoint compute_block (r : nat) (iev : list nat) (norms : list N) (xs : list X)
         (j cnt : nat) : option (list N * list X) :=
  match cnt with
  | 0 => Some (norms, xs)
  | S c =>
      p <- get iev j;
      norms' <- put norms j (resid r p);
      xs' <- put xs j (vec p);
      compute_block r iev norms' xs' (S j) c
  end.

(** Lines 1687-1689: for (i = *blockSize; i < blockNormsSize; i++). *)
Fixpoint floor_block (norms : list N) (i cnt : nat) : option (list N) :=
  match cnt with
  | 0 => Some norms
  | S c => nm <- get norms i; norms' <- put norms i (floor nm); floor_block norms' (S i) c
  end.

(** The loop of lines 1533-1702, one round. *)
Fixpoint rounds (fuel r bns : nat) (s : sel) : option sel :=
  match fuel with
  | 0 => None
  | S fu =>
      if bns <=? q_cap q then
        b <- check_block r (s_flags s) (s_iev s) (s_norms s) (s_bs s) bns;
        s1 <- inner r (fst b) (s_bs s)
                (mkSel (s_flags s) (s_bnorms s) (s_iev s) (snd b) (s_xs s)
                   (s_bs s) (s_rc s) (s_max s) (s_next s));
        z <- find_next (s_flags s1) (s_max s1) (q_basisSize q - s_next s1) (s_next s1)
               (s_bs s1) (s_iev s1);
        let iev := fst z in let blki := snd z in
        let s2 := mkSel (s_flags s1) (s_bnorms s1) iev (s_norms s1) (s_xs s1)
                    (s_bs s1) (s_rc s1) (s_max s1) (s_next s1) in
        if (blki =? s_bs s1) || (q_remained q <=? s_rc s1)%Z then Some s2
        else
          c <- compute_block r iev (s_norms s1) (s_xs s1) (s_bs s1) (blki - s_bs s1);
          nm <- floor_block (fst c) (s_bs s1) (blki - s_bs s1 - s_bs s1);
          rounds fu (S r) (blki - s_bs s1)
            (mkSel (s_flags s1) (s_bnorms s1) iev nm (snd c)
               (s_bs s1) (s_rc s1) (s_max s1) (s_next s1))
      else None
  end.

(** prepare_candidates after the flags have been reordered (line 1530).
    [bns] is blockNormsSize: the pairs whose residual is already known. *)
Definition prepare_candidates (flags : list flag) (bnorms : list N) (iev : list nat)
           (norms : list N) (xs : list X) (bns : nat) : option sel :=
  rounds (S (S (q_basisSize q))) 0 bns
    (mkSel flags bnorms iev norms xs 0 0 (Z.of_nat (q_cap q)) 0).

End Call.
End Select.

(** main_iter.c 527-542: availableBlockSize and maxRecentlyConverged.
    [byShift]: numTargetShifts > numConverged+1 and the QR of A - shift is kept. *)
Definition max_recent (byShift : bool) (numEvals numConverged numLocked : Z) : Z :=
  if byShift then (numConverged - numLocked + 1)%Z
  else Z.max 0 (numEvals - numConverged).

Definition available (byShift : bool) (maxBlockSize maxBasisSize basisSize
                      numEvals numConverged numLocked : Z) : Z :=
  Z.min (Z.min (if byShift then 1 else maxBlockSize) (maxBasisSize - basisSize))
        (max_recent byShift numEvals numConverged numLocked + 1).

(** main_iter.c 1010-1023: numConverged - numLocked after the recount, over the
    flags from position [i] on; [c] counts. *)
Fixpoint recount (flags : list flag) (i : nat) (numEvals numLocked c : nat) (t : target) : nat :=
  match flags with
  | [] => c
  | f :: fs =>
      recount fs (S i) numEvals numLocked
        (if negb (is_unconverged f) && (numLocked + c <? numEvals) &&
            ((i <? numEvals - numLocked) || one_sided t)
         then S c else c) t
  end.

(** main_iter.c 1028-1041: the permutation that brings the [nc] converged pairs
    and the block to the front; [iw] is iwork, [k], [l], [m] the counters. *)
Fixpoint front_loop (flags : list flag) (iev : list nat) (bs nc : nat)
         (cnt i k l m : nat) (iw : list nat) : option (list nat) :=
  match cnt with
  | 0 => Some iw
  | S c =>
      f <- get flags i;
      let inIev := existsb (Nat.eqb i) (firstn bs iev) in
      let isConv := negb (is_unconverged f) in
      if (isConv && (m <? nc)) || inIev then
        iw' <- put iw k i;
        front_loop flags iev bs nc c (S i) (S k) l (if isConv then S m else m) iw'
      else
        iw' <- put iw (nc + bs + l) i;
        front_loop flags iev bs nc c (S i) k (S l) (if isConv then S m else m) iw'
  end.

Definition front_perm (flags : list flag) (iev : list nat) (bs nc basisSize : nat)
           (iw : list nat) : option (list nat) :=
  front_loop flags iev bs nc basisSize 0 0 0 0 iw.
