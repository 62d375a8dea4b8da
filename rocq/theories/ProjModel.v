(** Model of the projections of the correction equation:
    setup_JD_projectors and Olsen_preconditioner_block (src/eigs/correction.c
    862-997 and 718-777), apply_projected_preconditioner, apply_skew_projector
    and apply_projected_matrix (src/eigs/inner_solve.c 714-742, 769-808 and
    838-892), update_XKinvBX and MSolve (src/eigs/factorize.c 183-236 and
    268-300), and the places that keep the matrix Q'K^{-1}BQ up to date
    (src/eigs/init.c 144-170 and the end of restart_projection,
    src/eigs/restart.c 1470-1531).

    Scalars are any type with field operations and a conjugation.  Vectors are
    whole vectors, not the part of a process: the reductions over the processes
    are the subject of C29.  A matrix is the function of its columns.  LAPACK's
    solvers are an arbitrary function [solve] (see [lapack] in PropsProj).
    Memory allocation, timing and statistics are left out. *)
From Coq Require Import List Arith Bool Lia.
From Verif Require Import Base.
Import ListNotations.

Record scal (K : Type) := Scal { k0 : K; k1 : K; kadd : K -> K -> K; kmul : K -> K -> K;
  ksub : K -> K -> K; kopp : K -> K; kdiv : K -> K -> K; kinv : K -> K; kconj : K -> K;
  kzero : K -> bool }.
Arguments k0 {K}. Arguments k1 {K}. Arguments kadd {K}. Arguments kmul {K}. Arguments ksub {K}.
Arguments kopp {K}. Arguments kdiv {K}. Arguments kinv {K}. Arguments kconj {K}. Arguments kzero {K}.

Section Proj.
Context {K : Type} (o : scal K).

Definition vec := nat -> K.
Definition mat := nat -> vec.                                   (* column, row *)

Fixpoint sum (n : nat) (f : nat -> K) : K :=
  match n with 0 => k0 o | S m => kadd o (sum m f) (f m) end.
(** Num_dist_dots, Num_gemm_ddh("C","N") and the reduction: x'y. *)
Definition dot (n : nat) (x y : vec) : K := sum n (fun r => kmul o (kconj o (x r)) (y r)).

(** The array Mfact: NULL, never written, one number, or the factors of a
    matrix of a given order. *)
Inductive factor := Null | Unset | Number (m : K) | Factors (d : nat) (A : nat -> nat -> K).

(** [solve d A b]: LAPACK's solution of A x = b of order d. *)
Variable solve : nat -> (nat -> nat -> K) -> vec -> vec.

(** MSolve, factorize.c 268-300, for one right hand side; [None]: the factors
    are not those of a matrix of the order asked for.  With Mfact NULL
    apply_skew_projector does not call it (inner_solve.c 791). *)
Definition msolve (f : factor) (d : nat) (b : vec) : option vec :=
  match f with
  | Null => Some b
  | Unset => None
  | Number m => if d =? 1 then Some (fun j => kdiv o (b j) m) else None
  | Factors d' A => if (2 <=? d) && (d =? d') then Some (solve d A b) else None
  end.

(** apply_skew_projector, inner_solve.c 769-808, on one column v:
    v - Qhat (Q'Qhat)^{-1} Q'v. *)
Definition apply_skew_projector (n : nat) (Q Qhat : mat) (f : factor) (numCols : nat) (v : vec) : option vec :=
  if numCols =? 0 then Some v
  else
    let overlaps := fun j => dot n (Q j) v in
    a <- msolve f numCols overlaps ;
    Some (fun r => ksub o (v r) (sum numCols (fun j => kmul o (Qhat j r) (a j)))).

(** The members of primme.correctionParams and of primme used here. *)
Record choice := Choice { leftQ : bool; leftX : bool; rightQ : bool; rightX : bool;
  skewQ : bool; skewX : bool; precondition : bool;
  locking : bool; mass : bool; numOrthoConst : nat; numEvals : nat }.

(** What setup_JD_projectors leaves: the arrays evecs and Bevecs ([None] if
    Bevecs is NULL; the callers then pass evecs, main_iter.c 660), the sizes of
    the four projectors and the arrays of the projectors other than LprojectorQ
    = evecs and LprojectorBQ = Bevecs. *)
Record setup := Setup { s_evecs : mat; s_Bevecs : option mat; n_lq : nat; n_lx : nat;
  lx : mat; lbx : mat; n_rq : nat; rq : mat; n_rx : nat; rx : mat; xkbx : nat -> K }.

Definition orelse (b : option mat) (e : mat) : mat := match b with Some m => m | None => e end.
Definition setcol (m : mat) (j : nat) (v : vec) : mat := fun k => if k =? j then v else m k.

(** The preconditioner callback, or a copy without one (auxiliary_eigs.c 317-362). *)
Definition precond (c : choice) (Kinv : vec -> vec) (v : vec) : vec :=
  if precondition c then Kinv v else v.

(** setup_JD_projectors, correction.c 862-997.  [None]: the copy of x next to
    the eigenvectors does not fit (the array has numOrthoConst + numEvals
    columns, main_iter.c 267). *)
Definition setup_JD_projectors (c : choice) (n : nat) (Kinv : vec -> vec) (x Bx evecs : mat)
    (Bevecs : option mat) (evecsHat : mat) (numLocked numConverged blockSize : nat) : option setup :=
  let sizeEvecs := numOrthoConst c + (if locking c then numLocked else numConverged) in
  let both := leftQ c && leftX c && (blockSize <=? 1) in
  let copied := both && (blockSize =? 1) in
  if copied && negb (sizeEvecs <? numOrthoConst c + numEvals c) then None
  else
    let evecs1 := if copied then setcol evecs sizeEvecs (x 0) else evecs in
    (* Bx <> x exactly when there is a mass matrix; Bevecs NULL means evecs again *)
    let '(evecs2, Bevecs2) :=
      if copied && mass c then
        match Bevecs with
        | Some b => (evecs1, Some (setcol b sizeEvecs (Bx 0)))
        | None => (setcol evecs1 sizeEvecs (Bx 0), None)
        end
      else (evecs1, Bevecs) in
    let nlq := if leftQ c then (if both then sizeEvecs + blockSize else sizeEvecs) else 0 in
    let nlx := if leftX c && negb both then blockSize else 0 in
    let '(nrq, rQ) :=
      if rightQ c then (sizeEvecs, if precondition c && skewQ c then evecsHat else orelse Bevecs2 evecs2)
      else (0, evecsHat) in
    let '(nrx, rX, xk) :=
      if rightX c then
        if precondition c && skewX c then
          let KinvBx := fun i => precond c Kinv (Bx i) in
          (blockSize, KinvBx, fun i => dot n (x i) (KinvBx i))
        else (blockSize, Bx, fun _ => k1 o)
      else (0, Bx, fun _ => k0 o) in
    Some (Setup evecs2 Bevecs2 nlq nlx x Bx nrq rQ nrx rX xk).

(** apply_projected_matrix, inner_solve.c 838-892, on column i of the block. *)
Definition apply_projected_matrix (c : choice) (n : nat) (A B : vec -> vec) (s : setup)
    (shift : nat -> K) (i : nat) (v : vec) : option vec :=
  let Bv := if mass c then B v else v in
  let w := fun r => ksub o (A v r) (kmul o (shift i) (Bv r)) in
  w1 <- apply_skew_projector n (s_evecs s) (orelse (s_Bevecs s) (s_evecs s)) Null (n_lq s) w ;
  if n_lx s =? 0 then Some w1
  else apply_skew_projector n (fun _ => lx s i) (fun _ => lbx s i) Null 1 w1.

(** apply_projected_preconditioner, inner_solve.c 714-742, on column i.  The
    arguments Q and x are the arrays of eigenvectors and of Ritz vectors. *)
Definition apply_projected_preconditioner (c : choice) (n : nat) (Kinv : vec -> vec) (s : setup)
    (f : factor) (i : nat) (v : vec) : option vec :=
  w <- apply_skew_projector n (s_evecs s) (rq s) f (n_rq s) (precond c Kinv v) ;
  if n_rx s =? 0 then Some w
  else apply_skew_projector n (fun _ => lx s i) (fun _ => rx s i) (Number (xkbx s i)) 1 w.

(** The user's preconditioner may report an error ([None]); applyPreconditioner
    (auxiliary_eigs.c 317-365) then returns it. *)
Definition try_precond (c : choice) (Kinv : vec -> option vec) (v : vec) : option vec :=
  if precondition c then Kinv v else Some v.

(** Olsen_preconditioner_block, correction.c 718-777, on one vector. *)
Definition olsen (c : choice) (n : nat) (Kinv : vec -> option vec) (x Bx r : vec) : option vec :=
  KinvBx <- try_precond c Kinv Bx ;
  Kinvr <- try_precond c Kinv r ;
  let xKinvBx := dot n x KinvBx in
  let xKinvr := dot n x Kinvr in
  Some (if kzero o xKinvBx then Kinvr
        else let alpha := kdiv o (kopp o xKinvr) xKinvBx in
             fun q => kadd o (Kinvr q) (kmul o alpha (KinvBx q))).

(** solve_correction without inner iterations, correction.c 334-375, on one
    vector: the new content of x, or [None] if an error is returned.
    [eps] is approxOlsenEps (C45); [orth_I] is orth == primme_orth_implicit_I.
    The error code of Olsen_preconditioner_block is not looked at (line 349);
    x is then what it was. *)
Definition gd_correction (c : choice) (orth_I : bool) (n : nat) (Kinv : vec -> option vec)
    (eps : K) (x Bx r : vec) : option vec :=
  if rightX c && skewX c then
    match olsen c n Kinv x Bx r with Some d => Some d | None => Some x end
  else
    let r1 := if rightX c && (precondition c || mass c || (locking c && orth_I))
              then fun q => ksub o (r q) (kmul o eps (Bx q)) else r in
    try_precond c Kinv r1.

(* ---------------------------------------------------------------- *)
(** ** Keeping Q'K^{-1}BQ *)

(** The small matrix: row, column. *)
Definition small := nat -> nat -> K.

(** update_projection, update_projection.c 82-166, without the reduction:
    rows 0..m-1 of the new columns, and the new rows if not symmetric. *)
Definition update_projection (n : nat) (X Y : mat) (Z : small) (numCols blockSize : nat) (sym : bool) : small :=
  if blockSize =? 0 then Z
  else
    let m := numCols + blockSize in
    fun i j => if (numCols <=? j) && (j <? m) && (i <? m) then dot n (X i) (Y j)
               else if negb sym && (numCols <=? i) && (i <? m) && (j <? numCols) then dot n (X i) (Y j)
               else Z i j.

(** The matrix xHETRF("U") sees: the upper triangle and its mirror image. *)
Definition upper (Z : small) : small := fun i j => if i <=? j then Z i j else kconj o (Z j i).

(** update_XKinvBX, factorize.c 183-236.  [None]: the leading dimension of the
    factors is too small (an assertion of the copy, auxiliary.c 452, or the
    error of xHETRF or xGETRF without assertions). *)
Definition update_XKinvBX (c : choice) (n : nat) (X KinvBX : mat) (M : small)
    (numCols blockSize : nat) (f : factor) (ldMfact : nat) : option (small * factor) :=
  let M1 := update_projection n X KinvBX M numCols blockSize (negb (mass c)) in
  let nM := numCols + blockSize in
  if nM =? 0 then Some (M1, f)
  else if nM =? 1 then Some (M1, Number (M1 0 0))
  else if ldMfact <? nM then None
  else if mass c then Some (M1, Factors nM M1)
  else Some (M1, Factors nM (upper M1)).

(** What is kept between restarts: evecsHat, M, Mfact and evecsSize. *)
Record kept := Kept { hat : mat; k_M : small; k_fact : factor; k_size : nat }.

(** Columns first..last-1 of evecsHat become K^{-1} of those of [b]. *)
Definition fill (c : choice) (Kinv : vec -> vec) (h b : mat) (first last : nat) : mat :=
  fun j => if (first <=? j) && (j <? last) then precond c Kinv (b j) else h j.

(** init.c 146-169: done only with constraints and when M is not NULL.
    main_iter.c 417 passes 0 as leading dimension of Mfact. *)
Definition init_hat (c : choice) (n : nat) (Kinv : vec -> vec) (evecs : mat) (Bevecs : option mat)
    (k : kept) : option kept :=
  if numOrthoConst c =? 0 then Some k
  else
    let h := fill c Kinv (hat k) (orelse Bevecs evecs) 0 (numOrthoConst c) in
    r <- update_XKinvBX c n evecs h (k_M k) 0 (numOrthoConst c) (k_fact k) 0 ;
    Some (Kept h (fst r) (snd r) (k_size k)).

(** The end of restart_projection, restart.c 1470-1531.  [None]: the array
    Bevecs is NULL and columns of it are read, or update_XKinvBX fails.
    main_iter.c 1089 passes 0 as leading dimension of Mfact. *)
Definition restart_hat (c : choice) (n : nat) (Kinv : vec -> vec) (evecs : mat) (Bevecs : option mat)
    (numConverged : nat) (k : kept) : option kept :=
  let size := if locking c then k_size k else 0 in
  h <- match Bevecs with
       | Some b => Some (fill c Kinv (hat k) b (size + numOrthoConst c) (numConverged + numOrthoConst c))
       | None => if numConverged - size =? 0 then Some (hat k) else None
       end ;
  r <- update_XKinvBX c n evecs h (k_M k) size (numConverged - size) (k_fact k) 0 ;
  Some (Kept h (fst r) (snd r) numConverged).

(** main_iter.c 325-333: evecsHat, M and Mfact exist only in this case. *)
Definition wants_hat (c : choice) (maxInnerIterations_nonzero : bool) : bool :=
  precondition c && maxInnerIterations_nonzero && rightQ c && skewQ c.
End Proj.
Arguments Null {K}. Arguments Unset {K}. Arguments Number {K}. Arguments Factors {K}.
