(** The extraction of approximate eigenvectors from the basis: src/eigs/solve_projection.c
    (solve_H_RR, solve_H_Harm, solve_H_Ref, prepare_vecs), compute_submatrix of
    src/linalg/auxiliary.c and update_Q of src/eigs/update_W.c.

    Simplifications, for the whole file: exact arithmetic over a field with a
    conjugation (ProjModel); arrays are functions of row and column, the leading
    dimensions and the work arrays are left out (a call may not overlap its
    arguments here, where the code does so it is said); the Hermitian build
    (USE_HERMITIAN); values that the code stores as reals (hVals, hSVals) are
    scalars, so the projections on the real part of 495 and 616 are identities,
    which is exact when H is Hermitian.  LAPACK is the record [kernels]: what it is
    assumed to answer is in SpecExtract. *)
From Coq Require Import List Arith Bool Lia.
From Verif Require Import Base ProjModel MatAlg.
Import ListNotations.

Section Extract.
Context {K : Type} (o : scal K).
Notation mx := (@mx K).

Inductive target := Smallest | Largest | ClosestGeq | ClosestLeq | ClosestAbs | LargestAbs.

Record kernels := Kernels {
  (** Num_hegv "V" "U" (xHEEV when the second matrix is absent): values and vectors *)
  hegv : nat -> mx -> option mx -> option ((nat -> K) * mx);
  (** Num_gesvd "S" "O": left vectors, singular values, adjoint of the right vectors *)
  gesvd : nat -> mx -> option (mx * (nat -> K) * mx);
  (** Num_potrf "U": the upper factor (the rest of the array is never read) *)
  potrf : nat -> mx -> option mx;
  (** Num_getrf and Num_getrs "N", or Num_trsm "L": A \ B *)
  lsolve : nat -> mx -> mx -> option mx;
  (** Num_trsm "R": B / A *)
  rsolve : nat -> mx -> mx -> option mx;
  (** Bortho_local *)
  bortho : nat -> mx -> option mx -> option mx;
  (** The permutation of solve_H_RR 233-317, modelled in RitzModel *)
  order : target -> nat -> (nat -> K) -> nat -> nat }.
Context (L : kernels).

(** compute_submatrix, auxiliary.c 598-628, isherm: only the upper triangle of H is read. *)
Definition compute_submatrix (nX nH : nat) (X H : mx) : mx :=
  mul o nH (adj o X) (mul o nH (upper o H) X).

(** solve_H_RR, solve_projection.c 187-331.  For the target largest -H is
    decomposed (204-208) and the values negated (225-229). *)
Definition solve_H_RR (t : target) (n : nat) (H : mx) (VtBV : option mx) : option ((nat -> K) * mx) :=
  match t with
  | Smallest => hegv L n (upper o H) VtBV
  | Largest =>
      p <- hegv L n (upper o (fun i j => kopp o (H i j))) VtBV ;
      Some ((fun i => kopp o (fst p i)), snd p)
  | _ =>
      p <- hegv L n (upper o H) VtBV ;
      let s := order L t n (fst p) in
      Some ((fun i => fst p (s i)), cols (snd p) s)
  end.

(** The Rayleigh quotients of 490-497 and 609-618: Num_hemm "L" "U", then the dots. *)
Definition rayleigh (n : nat) (H X : mx) : nat -> K :=
  let HX := mul o n (upper o H) X in
  fun i => sum o n (fun r => kmul o (kconj o (X r i)) (HX r i)).

(** The target that solve_H_Harm gives to solve_H_RR, 463-475 (the others are an assertion). *)
Definition harmonic_target (t : target) : option target :=
  match t with
  | ClosestGeq => Some Largest
  | ClosestLeq => Some Smallest
  | ClosestAbs => Some LargestAbs
  | _ => None
  end.

Record extracted := Extracted { hVals : nat -> K; hVecs : mx; hU : mx; hSVals : nat -> K }.

(** solve_H_Harm, solve_projection.c 430-501.  The system with the adjoint of R
    (454-457) is solved with the factors of R; solve_H_RR works in place on hVecs. *)
Definition solve_H_Harm (t : target) (n : nat) (H QtV R : mx) (QtQ VtBV : option mx) (sv : nat -> K) : option extracted :=
  QAQ <- lsolve L n (adj o R) (adj o QtV) ;
  t' <- harmonic_target t ;
  p <- solve_H_RR t' n QAQ QtQ ;
  let U := snd p in
  X <- lsolve L n R U ;
  X <- bortho L n X VtBV ;
  Some (Extracted (rayleigh n H X) X U sv).

(** The order of 593-606. *)
Definition ref_order (t : target) (n : nat) : nat -> nat :=
  match t with
  | ClosestAbs | ClosestLeq | ClosestGeq => fun i => n - 1 - i
  | _ => fun i => i
  end.

(** solve_H_Ref, solve_projection.c 536-622.  The leading dimension of hVecs in the
    triangular solve of 568-569 is basisSize; every caller passes a leading dimension
    equal to basisSize (main_iter.c 487, 851, 570; restart.c), so it is left out. *)
Definition solve_H_Ref (t : target) (n : nat) (H R : mx) (QtQ VtBV : option mx) : option extracted :=
  M <- match QtQ with
       | None => Some R
       | Some G => C <- potrf L n G ; Some (mul o n C R)
       end ;
  UM <- match VtBV with
        | None => Some (None, M)
        | Some G => U <- potrf L n G ; M' <- rsolve L n U M ; Some (Some U, M')
        end ;
  d <- gesvd L n (snd UM) ;
  let '(hu, s, vt) := d in
  X <- match fst UM with
       | None => Some (adj o vt)
       | Some U => lsolve L n U (adj o vt)
       end ;
  let p := ref_order t n in
  let X := cols X p in
  Some (Extracted (rayleigh n H X) X (cols hu p) (fun i => s (p i))).

(** ** prepare_vecs, solve_projection.c 841-986 *)

(** What the routine changes: hVals, hVecs, hVecsRot and arbitraryVecs.  [Rot] is
    the square matrix hVecsRot; the code keeps it only for the columns below
    arbitraryVecs. *)
Record prep := Prep { pVals : nat -> K; pVecs : mx; pRot : mx; arb : nat }.

(** The first i > j separated enough (907-940), at most basisSize.  [far] is the
    test of 932-935 for the index i: it compares measured quantities and may be any. *)
Fixpoint find_sep (far : nat -> bool) (fuel i basisSize : nat) : nat :=
  match fuel with
  | 0 => i
  | S f => if i <? basisSize then if far i then i else find_sep far f (i + 1) basisSize else i
  end.

(** Rayleigh-Ritz in the cluster j:i-1, 949-979. *)
Definition rotate (t : target) (basisSize : nat) (H : mx) (j i : nat) (p : prep) : option prep :=
  let a := i - j in
  let Y := fun r c => pVecs p r (j + c) in
  let aH := compute_submatrix a basisSize Y H in
  d <- solve_H_RR t a aH None ;
  let inside c := (j <=? c) && (c <? i) in
  let rot r c :=
    if inside c && inside r then snd d (r - j) (c - j)
    else if (arb p <=? c) && (c <? i) then (if r =? c then k1 o else k0 o)
    else pRot p r c in
  Some (Prep (fun c => if inside c then fst d (c - j) else pVals p c)
             (fun r c => if inside c then mul o a Y (snd d) r (c - j) else pVecs p r c)
             rot i).

(** The loop of 884-981.  [far j i] is the test of 932-935 in the cluster that
    starts at j: it reads the values, the singular values and the vectors from j
    on, which no earlier cluster has changed, and may be any.  [flag c] says that the
    pair is unconverged (true for all when there are no flags).  someCandidate
    (931) is 1 as soon as the cluster has two vectors, so it is left out together
    with RRForAll. *)
Fixpoint count_to (flag : nat -> bool) (j n : nat) : nat :=
  match n with 0 => 0 | S m => (if flag j then 1 else 0) + count_to flag (j + 1) m end.

Fixpoint prepare_loop (fuel : nat) (far : nat -> nat -> bool) (flag : nat -> bool) (t : target)
    (basisSize blockSize : nat) (H : mx) (candidates i j : nat) (p : prep) : option prep :=
  match fuel with
  | 0 => None
  | S f =>
      if (j <? basisSize) && (candidates <? blockSize) then
        let candidates := candidates + count_to flag j (i - j) in
        let j := Nat.max i j in
        if blockSize <=? candidates then Some p
        else
          let i := Nat.min (find_sep (far j) basisSize (j + 1) basisSize) basisSize in
          if 1 <? i - j then
            p <- rotate t basisSize H j i p ;
            prepare_loop f far flag t basisSize blockSize H candidates i j p
          else prepare_loop f far flag t basisSize blockSize H candidates i j p
      else Some p
  end.

Definition prepare_vecs (refined : bool) (far : nat -> nat -> bool) (flag : nat -> bool) (t : target)
    (basisSize i0 blockSize : nat) (H : mx) (p : prep) : option prep :=
  if negb refined || (basisSize =? 0) then Some p
  else if blockSize =? 0 then Some p
  else prepare_loop (basisSize + 2) far flag t basisSize blockSize H 0 (Nat.min (arb p) basisSize) i0 p.

(** ** update_Q, update_W.c 78-113 *)

(** ortho_block on the columns b1 .. b2-1: the new Q and R and the number of columns. *)
Definition ortho := nat -> mx -> mx -> nat -> nat -> option (mx * mx * nat).

Definition update_Q (ortho_block : ortho) (nLocal : nat) (BV W Q R : mx) (targetShift : K)
    (basisSize blockSize nQ : nat) : option (mx * mx * nat) :=
  if blockSize =? 0 then Some (Q, R, nQ)
  else
    let Q1 : mx := fun r c => if (basisSize <=? c) && (c <? basisSize + blockSize)
                         then ksub o (W r c) (kmul o (BV r c) targetShift) else Q r c in
    d <- ortho_block nLocal Q1 R nQ (nQ + blockSize) ;
    let '(Q2, R2, nQ2) := d in
    Some (Q2, (fun r c => if (basisSize <=? r) && (r <? basisSize + blockSize) && (c <? basisSize)
                          then k0 o else R2 r c), nQ2).

(** The call for the initial guesses that enter the basis after a restart,
    main_iter.c 1141-1149: update_Q is given V, where the other calls (main_iter.c 463,
    806, restart.c 1888, 2301) give BV. The two are the same array here: a mass matrix
    with an extraction that keeps this factorization is rejected with -39
    (primme_c.c 518-520).
    [None] if the factorization is deficient. *)
Definition guess_Q (ortho_block : ortho) (nLocal : nat) (V W Q R : mx) (targetShift : K)
    (basisSize numNew : nat) : option (mx * mx) :=
  d <- update_Q ortho_block nLocal V W Q R targetShift basisSize numNew basisSize ;
  let '(Q2, R2, nQ2) := d in
  if basisSize + numNew =? nQ2 then Some (Q2, R2) else None.
End Extract.
Arguments kernels : clear implicits.
Arguments extracted : clear implicits.
Arguments prep : clear implicits.
Arguments ortho : clear implicits.
