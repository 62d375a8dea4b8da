(** Building the initial basis: init_basis (src/eigs/init.c 125-223) and
    init_block_krylov (258-323).

    Columns are values of an arbitrary type; V and W map a column number to the
    column.  The matrix acts on one column at a time ([A]).  What an
    orthogonalization writes in its own range of columns and the rank it reports
    are arbitrary (its frame - only its range changes, the rank lies within the
    range - is what OrthoModel proves); so are the random columns and every error
    code.  Not modelled: the B-products, the Gram matrices and M/evecsHat, which
    do not touch V or W. *)
From Coq Require Import ZArith List Bool Lia.
From Verif Require Import Base.
Open Scope Z_scope.

Section Init.
Context {col : Type}.
Variable A : col -> col.
(** Oracles; the first argument is the number of oracle uses so far. *)
Variable orth_col : nat -> (Z -> col) -> Z -> col.   (* column left by ortho *)
Variable orth_rank : nat -> (Z -> col) -> Z.         (* columns accepted *)
Variable orth_err : nat -> Z.
Variable rand_col : nat -> Z -> col.                 (* Num_larnv *)
Variable matvec_err : nat -> Z.

Record ist := mkIst { iV : Z -> col; iW : Z -> col; imv : Z; tick : nat }.

Definition in_range (a b j : Z) : bool := (a <=? j) && (j <=? b).
Definition step (s : ist) : ist := mkIst (iV s) (iW s) (imv s) (S (tick s)).
Definition set_V (s : ist) (V : Z -> col) : ist := mkIst V (iW s) (imv s) (S (tick s)).

(** Num_larnv on columns a..b *)
Definition randomize (a b : Z) (s : ist) : ist :=
  set_V s (fun j => if in_range a b j then rand_col (tick s) j else iV s j).

(** Bortho_block on columns b1..b2: error code, rank reached (b1..b2+1), state *)
Definition ortho (b1 b2 : Z) (s : ist) : Z * Z * ist :=
  (orth_err (tick s),
   if b2 <? b1 then b1 else Z.max b1 (Z.min (b2 + 1) (b1 + orth_rank (tick s) (iV s))),
   set_V s (fun j => if in_range b1 b2 j then orth_col (tick s) (iV s) j else iV s j)).

(** matrixMatvec from V[v..v+n-1] to W[w..] / to V[w..]: code, state *)
Definition matvec_W (v w n : Z) (s : ist) : Z * ist :=
  if n <=? 0 then (0, s) else
  (matvec_err (tick s),
   mkIst (iV s) (fun j => if in_range w (w + n - 1) j then A (iV s (j - w + v)) else iW s j)
         (imv s + n) (S (tick s))).
Definition matvec_V (v w n : Z) (s : ist) : Z * ist :=
  if n <=? 0 then (0, s) else
  (matvec_err (tick s),
   mkIst (fun j => if in_range w (w + n - 1) j then A (iV s (j - w + v)) else iV s j)
         (iW s) (imv s + n) (S (tick s))).
(** Num_copy_matrix from V[v..v+n-1] to W[w..] *)
Definition copy_VW (v w n : Z) (s : ist) : ist :=
  mkIst (iV s) (fun j => if in_range w (w + n - 1) j then iV s (j - w + v) else iW s j)
        (imv s) (S (tick s)).

(** The loop of init_block_krylov, 296-317.  [None]: not finished within the fuel. *)
Fixpoint krylov_loop (fuel : nat) (bs dv2 i m : Z) (s : ist) : option (Z * ist) :=
  match fuel with
  | O => None
  | S f =>
    if i <=? dv2 then
      let '(e1, s1) := matvec_V (i - bs) i m s in               (* 298 *)
      if negb (e1 =? 0) then Some (e1, s1) else
      let s2 := copy_VW i (i - bs) m s1 in                      (* 301 *)
      let '(e2, nV, s3) := ortho i (i + m - 1) s2 in            (* 304 *)
      if negb (e2 =? 0) then Some (e2, s3) else
      let s4 := randomize nV (i + m - 1) s3 in                  (* 308-310 *)
      let '(e3, nV', s5) := ortho nV (i + m - 1) s4 in          (* 311 *)
      if negb (e3 =? 0) then Some (e3, s5) else
      if negb (nV' =? i + m) then Some (-1, s5) else            (* 314 *)
      krylov_loop f bs dv2 (i + m) (Z.min m (dv2 - (i + m) + 1)) s5
    else Some (0, s)
  end.

(** init_block_krylov, 258-323 *)
Definition init_block_krylov (maxBlockSize dv1 dv2 : Z) (s : ist) : option (Z * ist) :=
  let numNew := dv2 - dv1 + 1 in                                (* 268 *)
  if numNew <=? 0 then Some (0, s) else                         (* 272 *)
  let bs := if numNew <=? maxBlockSize then 1 else maxBlockSize in  (* 280 *)
  let s1 := randomize dv1 (dv1 + bs - 1) s in                   (* 286-288 *)
  let '(e, nV, s2) := ortho dv1 (dv1 + bs - 1) s1 in            (* 290 *)
  if negb (e =? 0) then Some (e, s2) else
  if negb (nV =? dv1 + bs) then Some (-1, s2) else              (* 293 *)
  r <- krylov_loop (S (Z.to_nat numNew)) bs dv2 (dv1 + bs)
         (Z.min bs (dv2 - (dv1 + bs) + 1)) s2;
  let '(e, s3) := r in
  if negb (e =? 0) then Some (e, s3) else
  Some (matvec_W (dv2 - bs + 1) (dv2 - bs + 1) bs s3).          (* 319 *)

(** The parameters read by init_basis. *)
Record iparams := mkIp {
  q_n : Z; q_numOrthoConst : Z; q_initSize : Z; q_maxBasisSize : Z;
  q_minRestartSize : Z; q_maxBlockSize : Z; q_locking : bool; q_mode : Z }.
Definition init_krylov : Z := 1.
Definition init_random : Z := 2.
Definition init_user : Z := 3.

Record iout := mkIo { io_code : Z; io_basis : Z; io_next : Z; io_guesses : Z; io_st : ist }.

(** init_basis from 172 on (the constraints are handled before); [guess i] is
    user column numOrthoConst+i of evecs. *)
Definition init_basis (p : iparams) (guess : Z -> col) (s : ist) : option iout :=
  let initSize := if q_locking p then Z.min (q_minRestartSize p) (q_initSize p)
                  else Z.min (q_maxBasisSize p) (q_initSize p) in       (* 172-176 *)
  let initSize := Z.max 0 (Z.min (q_n p - q_numOrthoConst p) initSize) in   (* 177 *)
  let numGuesses := q_initSize p - initSize in                  (* 178 *)
  let nextGuess := q_numOrthoConst p + initSize in              (* 179 *)
  let s1 := set_V s (fun j => if in_range 0 (initSize - 1) j then guess j else iV s j) in (* 182 *)
  let random := if q_mode p =? init_krylov then 0               (* 185-194 *)
                else if q_mode p =? init_random then Z.max 0 (q_minRestartSize p - initSize)
                else Z.max (q_maxBlockSize p - initSize) 0 in
  let random := Z.max 0 (Z.min (q_n p - q_numOrthoConst p - initSize) random) in  (* 195 *)
  let s2 := randomize initSize (initSize + random - 1) s1 in    (* 196-199 *)
  let '(e, nB, s3) := ortho 0 (initSize + random - 1) s2 in     (* 203 *)
  if negb (e =? 0) then Some (mkIo e nB nextGuess numGuesses s3) else
  let '(e, s4) := matvec_W 0 0 nB s3 in                         (* 207 *)
  if negb (e =? 0) then Some (mkIo e nB nextGuess numGuesses s4) else
  if q_mode p =? init_krylov then                               (* 209-218 *)
    let r := Z.min (q_minRestartSize p) (q_n p - q_numOrthoConst p) in
    z <- init_block_krylov (q_maxBlockSize p) nB (r - 1) s4;
    let '(e, s5) := z in
    if negb (e =? 0) then Some (mkIo e nB nextGuess numGuesses s5)
    else Some (mkIo 0 r nextGuess numGuesses s5)
  else Some (mkIo 0 nB nextGuess numGuesses s4).
End Init.
