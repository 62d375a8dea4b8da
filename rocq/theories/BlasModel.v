(** The operations on blocks of vectors of src/linalg/blaslapack.c (494-1011 and
    1738-1748), with arrays, leading dimensions, increments, the range of the
    integers of BLAS and the conversion between the precision of the vectors
    (SCALAR) and the one of the small matrices (HSCALAR).

    An array is what is read from its pointer on; a moved pointer is [shift].
    Inputs and outputs do not share memory.  The reference BLAS is modelled by
    its documentation (the result on the elements named, nothing else changed;
    an illegal leading dimension or increment is reported and the call does
    nothing useful: [Illegal]).  Not modelled: failures of malloc, the build for
    a GPU and the build of half precision without BLAS of half precision for
    Num_gemm and Num_gemv themselves (there they are the calls [gemm_dhd] ...
    of another precision). *)
From Coq Require Import List Arith Bool Lia.
From Verif Require Import Base ProjModel SpecProj MatAlg.
Import ListNotations.

Section Blas.
Context {K : Type} (o : scal K).
Definition arr := nat -> K.
Definition shift (d : nat) (a : arr) : arr := fun q => a (d + q).

(** transa, transb *)
Inductive trans := trN | trT | trC.
Definition isN (t : trans) : bool := match t with trN => true | _ => false end.
Definition isC (t : trans) : bool := match t with trC => true | _ => false end.

Variable cplx : bool.               (* USE_COMPLEX *)
Variable bmax : nat.                (* PRIMME_BLASINT_MAX *)
Variable pbs : nat.                 (* PRIMME_BLOCK_SIZE *)
Variable kcode : K.                 (* an error code returned as a number, Num_dot 916-917 *)

(** ABS(x) == 0.0 and x == 1.0 *)
Definition iszero (x : K) : bool := kzero o x.
Definition isone (x : K) : bool := kzero o (ksub o x (k1 o)).

Inductive res := Done (c : arr) | Fails | Illegal.
Definition rbind (r : res) (f : arr -> res) : res := match r with Done c => f c | e => e end.

(** blaslapack.c 57-63 *)
Definition in_blas_int (n : nat) : bool := n <=? bmax.

(** ** Reference BLAS. *)

(** The elements off, off+inc, ..., n of them. *)
Definition hit (off inc n q : nat) : bool :=
  (off <=? q) && ((q - off) mod inc =? 0) && ((q - off) / inc <? n).
(** XSCAL on x[off..] *)
Definition xscal (n : nat) (alpha : K) (x : arr) (off inc : nat) : arr :=
  fun q => if hit off inc n q then kmul o alpha (x q) else x q.
(** XAXPY on y[offy..] *)
Definition xaxpy (n : nat) (alpha : K) (x : arr) (incx : nat) (y : arr) (offy incy : nat) : arr :=
  fun q => if hit offy incy n q
           then kadd o (y q) (kmul o alpha (x ((q - offy) / incy * incx))) else y q.
(** XDOT (of real numbers) *)
Definition xdot (n : nat) (x : arr) (incx : nat) (y : arr) (incy : nat) : K :=
  sum o n (fun i => kmul o (x (i * incx)) (y (i * incy))).
(** Element (i, l) of op(A). *)
Definition el (t : trans) (a : arr) (lda i l : nat) : K :=
  match t with
  | trN => a (l * lda + i)
  | trT => a (i * lda + l)
  | trC => kconj o (a (i * lda + l))
  end.
(** XGEMV, y at offset offy; m and n are the dimensions of A. *)
Definition xgemv (t : trans) (m n : nat) (alpha : K) (a : arr) (lda : nat) (x : arr) (incx : nat)
    (beta : K) (y : arr) (offy incy : nat) : res :=
  if (lda <? Nat.max 1 m) || (incx =? 0) || (incy =? 0) then Illegal
  else let rows := if isN t then m else n in
       let inner := if isN t then n else m in
       Done (fun q => if hit offy incy rows q
                      then kadd o (kmul o alpha (sum o inner (fun l =>
                             kmul o (el t a lda ((q - offy) / incy) l) (x (l * incx)))))
                             (kmul o beta (y q))
                      else y q).
(** The block of m rows and n columns with leading dimension ld (at least m). *)
Definition inblock (m n ld q : nat) : bool := (q mod ld <? m) && (q / ld <? n).
(** XGEMM *)
Definition xgemm (ta tb : trans) (m n k : nat) (alpha : K) (a : arr) (lda : nat) (b : arr)
    (ldb : nat) (beta : K) (c : arr) (ldc : nat) : res :=
  let ra := if isN ta then m else k in
  let rb := if isN tb then k else n in
  if (lda <? Nat.max 1 ra) || (ldb <? Nat.max 1 rb) || (ldc <? Nat.max 1 m) then Illegal
  else Done (fun q => if inblock m n ldc q
                      then kadd o (kmul o alpha (sum o k (fun l =>
                             kmul o (el ta a lda (q mod ldc) l) (el tb b ldb l (q / ldc)))))
                             (kmul o beta (c q))
                      else c q).

(** ** The wrappers. *)

(** Num_zero_matrix, 497-509, for a leading dimension of at least m. *)
Definition zero_matrix (x : arr) (m n ld : nat) : arr :=
  fun q => if inblock m n ld q then k0 o else x q.

(** Num_scal, 995-1015: in pieces of at most PRIMME_BLASINT_MAX-1 elements; the
    pointer moves by the number of elements whatever the increment is. *)
Fixpoint scal_from (fuel n : nat) (alpha : K) (x : arr) (off inc : nat) : arr :=
  match fuel with
  | 0 => x
  | S f => if n =? 0 then x
           else let ln := Nat.min n (bmax - 1) in
                scal_from f (n - ln) alpha (xscal ln alpha x off inc) (off + ln) inc
  end.
Definition num_scal (n : nat) (alpha : K) (x : arr) (inc : nat) : res :=
  if in_blas_int inc then Done (scal_from n n alpha x 0 inc) else Fails.
(** Num_scal on x[off..]; its code is not looked at by Num_gemm (540) and Num_gemv (752). *)
Definition scal_at (off n : nat) (alpha : K) (x : arr) (inc : nat) : arr :=
  if in_blas_int inc then scal_from n n alpha x off inc else x.

(** Num_axpy, 863-887. *)
Fixpoint axpy_from (fuel n : nat) (alpha : K) (x : arr) (incx : nat) (y : arr) (off incy : nat) : arr :=
  match fuel with
  | 0 => y
  | S f => if n =? 0 then y
           else let ln := Nat.min n (bmax - 1) in
                axpy_from f (n - ln) alpha x incx
                  (xaxpy ln alpha (shift off x) incx y off incy) (off + ln) incy
  end.
Definition num_axpy (n : nat) (alpha : K) (x : arr) (incx : nat) (y : arr) (incy : nat) : res :=
  if in_blas_int incx && in_blas_int incy then Done (axpy_from n n alpha x incx y 0 incy) else Fails.

(** Num_dot, 894-930: the explicit loop of the complex build and the pieces of
    the real build, where an error code would be the value. *)
Fixpoint dot_from (fuel n : nat) (x : arr) (incx : nat) (y : arr) (incy : nat) (off : nat) (r : K) : K :=
  match fuel with
  | 0 => r
  | S f => if n =? 0 then r
           else let ln := Nat.min n (bmax - 1) in
                dot_from f (n - ln) x incx y incy (off + ln)
                  (kadd o r (xdot ln (shift off x) incx (shift off y) incy))
  end.
Definition num_dot (n : nat) (x : arr) (incx : nat) (y : arr) (incy : nat) : K :=
  if cplx then sum o n (fun i => kmul o (kconj o (x (i * incx))) (y (i * incy)))
  else if in_blas_int incx && in_blas_int incy then dot_from n n x incx y incy 0 (k0 o)
  else kcode.

(** Num_gemv, 730-786.  The loop 769-783: a, x and y move by the number of rows done. *)
Fixpoint gemv_from (fuel : nat) (t : trans) (m n : nat) (alpha : K) (a : arr) (lda : nat)
    (x : arr) (incx : nat) (beta : K) (y : arr) (incy : nat) (oa ox oy : nat) : res :=
  match fuel with
  | 0 => Done y
  | S f => if m =? 0 then Done y
           else let lm := Nat.min m (bmax - 1) in
                rbind (xgemv t lm n alpha (shift oa a) lda (shift ox x) incx beta y oy incy)
                  (fun y' =>
                     if isN t then gemv_from f t (m - lm) n alpha a lda x incx beta y' incy
                                     (oa + lm) ox (oy + lm)
                     else gemv_from f t (m - lm) n alpha a lda x incx (k1 o) y' incy
                            (oa + lm) (ox + lm) oy)
  end.
Definition gemv (t : trans) (m n : nat) (alpha : K) (a : arr) (lda : nat) (x : arr) (incx : nat)
    (beta : K) (y : arr) (incy : nat) : res :=
  if negb (in_blas_int n && in_blas_int lda && in_blas_int incx && in_blas_int incy) then Fails
  else
  let mA := if isN t then m else n in                       (* 741 *)
  let nA := if isN t then n else m in
  if mA =? 0 then Done y                                    (* 742 *)
  else if (nA =? 0) || iszero alpha then                    (* 745-753 *)
    Done (if iszero beta then zero_matrix y 1 mA incy else scal_at 0 mA beta y incy)
  else if mA =? 1 then                                      (* 754-765 *)
    let y0 := if iszero beta then k0 o else kmul o (y 0) beta in
    let d := if isN t then num_dot nA a lda x incx else num_dot nA a 1 x incx in
    let v := kadd o y0 (kmul o d alpha) in
    Done (fun q => if q =? 0 then v else y q)
  else gemv_from m t m n alpha a lda x incx beta y incy 0 0 0.

(** The loop 539-541: columns i, i+1, ..., n-1 of C scaled. *)
Fixpoint scal_cols (n : nat) (m : nat) (beta : K) (c : arr) (ldc i : nat) : arr :=
  match n with
  | 0 => c
  | S n' => scal_cols n' m beta (scal_at (ldc * i) m beta c 1) ldc (S i)
  end.
(** Num_gemm, 517-564. *)
Definition gemm (ta tb : trans) (m n k : nat) (alpha : K) (a : arr) (lda : nat) (b : arr)
    (ldb : nat) (beta : K) (c : arr) (ldc : nat) : res :=
  if negb (in_blas_int m && in_blas_int n && in_blas_int k && in_blas_int lda &&
           in_blas_int ldb && in_blas_int ldc) then Fails     (* 522-528 *)
  else if (m =? 0) || (n =? 0) then Done c                    (* 531 *)
  else if (k =? 0) || iszero alpha then                       (* 534-545 *)
    Done (if iszero beta then zero_matrix c m n ldc
          else if negb (isone beta) then scal_cols n m beta c ldc 0 else c)
  else if (n =? 1) && negb (cplx && isC tb) then              (* 546-557 *)
    let mA := if isN ta then m else k in
    let nA := if isN ta then k else m in
    let incb := if isN tb then 1 else ldb in
    gemv ta mA nA alpha a lda b incb beta c 1
  else xgemm ta tb m n k alpha a lda b ldb beta c ldc.        (* 559 *)

(** ** Conversions between SCALAR and HSCALAR. *)
Variable same : bool.               (* PRIMME_OP_SCALAR == PRIMME_OP_HSCALAR *)
Variable up down : K -> K.          (* SCALAR to HSCALAR and back *)
Variable junk : arr.                (* memory just allocated *)

(** The part of Num_copy_Tmatrix (blaslapack.c 344-388) that converts m rows and
    n columns into an array of leading dimension ldf. *)
Definition castto (ldf m n : nat) (a : arr) (lda : nat) : arr :=
  fun q => if inblock m n ldf q then up (a (q / ldf * lda + q mod ldf)) else junk q.
(** Num_matrix_astype with do_alloc = 1 (auxiliary.c 79-142): array and leading
    dimension.  With one type it is the array given. *)
Definition astype (m n : nat) (a : arr) (lda : nat) : arr * nat :=
  if same then (a, lda) else (castto m m n a lda, m).
(** The same with do_alloc = -1: converted back over c. *)
Definition back (m n : nat) (cf : arr) (ldf : nat) (c : arr) (ldc : nat) : arr :=
  if same then cf
  else fun q => if inblock m n ldc q then down (cf (q / ldc * ldf + q mod ldc)) else c q.

(** Num_gemm_dhd, 569-603. *)
Definition gemm_dhd (ta tb : trans) (m n k : nat) (alpha : K) (a : arr) (lda : nat) (b : arr)
    (ldb : nat) (beta : K) (c : arr) (ldc : nat) : res :=
  if (m =? 0) || (n =? 0) || (((k =? 0) || iszero alpha) && isone beta) then Done c
  else
  let ma := if isN ta then m else k in
  let na := if isN ta then k else m in
  let '(af, ldaf) := astype ma na a lda in
  let '(cf, ldcf) := astype m n c ldc in
  rbind (gemm ta tb m n k alpha af ldaf b ldb beta cf ldcf)
    (fun cf' => Done (back m n cf' ldcf c ldc)).

(** The loop 641-660 of Num_gemm_ddh: [i] rows are done, [kk] are taken next.  The
    leading dimensions of the converted arrays are those of the first turn. *)
Fixpoint ddh_from (fuel : nat) (ta tb : trans) (m n k : nat) (alpha : K) (a : arr) (lda : nat)
    (b : arr) (ldb : nat) (beta : K) (c : arr) (ldc : nat) (na nb ldf i kk : nat) : res :=
  match fuel with
  | 0 => Done c
  | S f =>
    if i <? k then
      let af := if same then shift i a else castto ldf kk na (shift i a) lda in
      let bf := if same then shift i b else castto ldf kk nb (shift i b) ldb in
      rbind (gemm ta tb m n kk alpha af (if same then lda else ldf) bf
               (if same then ldb else ldf) beta c ldc)
        (fun c' => ddh_from f ta tb m n k alpha a lda b ldb (k1 o) c' ldc na nb ldf
                     (i + kk) (Nat.min kk (k - (i + kk))))
    else Done c
  end.
(** Num_gemm_ddh, 610-664. *)
Definition gemm_ddh (ta tb : trans) (m n k : nat) (alpha : K) (a : arr) (lda : nat) (b : arr)
    (ldb : nat) (beta : K) (c : arr) (ldc : nat) : res :=
  if (m =? 0) || (n =? 0) || (((k =? 0) || iszero alpha) && isone beta) then Done c
  else
  let kk := if negb same && isC ta && isN tb && (pbs <? k) then pbs else k in   (* 624-629 *)
  let na := if isN ta then k else m in
  let nb := if isN tb then n else k in
  ddh_from k ta tb m n k alpha a lda b ldb beta c ldc na nb kk 0 kk.

(** Num_compute_gramm_ddh, 1738-1748. *)
Definition gramm_ddh (x : arr) (m n ldx : nat) (y : arr) (ldy : nat) (alpha : K) (h : arr)
    (ldh : nat) : res :=
  gemm_ddh trC trN n n m (k1 o) x ldx y ldy alpha h ldh.

(** Num_gemv_ddh, 794-821: the leading dimension given to the kernel is m and the
    increment of x is 1. *)
Definition gemv_ddh (t : trans) (m n : nat) (alpha : K) (a : arr) (lda : nat) (x : arr)
    (incx : nat) (beta : K) (y : arr) (incy : nat) : res :=
  let mx := if isN t then n else m in
  let '(af, _) := astype m n a lda in
  let '(xf, _) := astype 1 mx x incx in
  gemv t m n alpha af m xf 1 beta y incy.

(** Num_gemv_dhd, 828-857. *)
Definition gemv_dhd (t : trans) (m n : nat) (alpha : K) (a : arr) (lda : nat) (x : arr)
    (incx : nat) (beta : K) (y : arr) (incy : nat) : res :=
  let my := if isN t then m else n in
  let '(af, _) := astype m n a lda in
  let '(yf, incyf) := astype 1 my y incy in
  rbind (gemv t m n alpha af m x incx beta yf incyf)
    (fun yf' => Done (back 1 my yf' incyf y incy)).

(** compute_submatrix, auxiliary.c 598-632, with isherm = 0 (with isherm = 1 the
    first product is XHEMM on the upper triangle). *)
Definition submatrix (x : arr) (nX ldX : nat) (h : arr) (nH ldH : nat) (r : arr) (ldR : nat) : res :=
  if (nH =? 0) || (nX =? 0) then Done r
  else rbind (gemm trN trN nH nX nH (k1 o) h ldH x ldX (k0 o) (zero_matrix junk nH nX nH) nH)
    (fun rwork => gemm trC trN nX nX nH (k1 o) x ldX rwork nH (k0 o) (zero_matrix r nX nX ldR) ldR).

(** ** Two users of these operations, on [np] processes. *)
Variable np : nat.
(** globalSum: every process gets the sum of the buffers, element by element. *)
Definition global_sum (bufs : nat -> arr) : arr := fun q => sum o np (fun p => bufs p q).

(** One process's result or the first failure. *)
Fixpoint gather (n : nat) (f : nat -> res) : option (nat -> arr) :=
  match n with
  | 0 => Some (fun _ => junk)
  | S n' => match gather n' f, f n' with
            | Some g, Done c => Some (fun p => if p =? n' then c else g p)
            | _, _ => None
            end
  end.

(** apply_skew_projector, src/eigs/inner_solve.c 769-808: process p has nl p rows
    of Q, Qhat and v; [ovl p] is the buffer allocated at 779; [msolve] is the
    solution with Mfact, if there is one. *)
Definition skew_projector (nl : nat -> nat) (Q : nat -> arr) (ldQ : nat -> nat) (Qhat : nat -> arr)
    (ldQhat : nat -> nat) (msolve : arr -> arr) (numCols : nat) (v : nat -> arr) (ldv : nat -> nat)
    (blockSize : nat) (ovl : nat -> arr) : option (nat -> arr) :=
  if (numCols =? 0) || (blockSize =? 0) then Some v
  else match gather np (fun p => gemm_ddh trC trN numCols blockSize (nl p) (k1 o) (Q p) (ldQ p)
                                   (v p) (ldv p) (k0 o) (ovl p) numCols) with
  | None => None
  | Some bufs =>
    let overlaps := msolve (global_sum bufs) in
    gather np (fun p => gemm_dhd trN trN (nl p) blockSize numCols (kopp o (k1 o)) (Qhat p) (ldQhat p)
                          overlaps numCols (k1 o) (v p) (ldv p))
  end.

(** One pass of Bortho_gen over the column [i] of V (src/eigs/ortho.c 236-273):
    the coefficients with the columns before it and with the locked vectors, and
    the column after the subtraction.  [Bx] is B*V[i] (V[i] itself without B); the
    array [overlaps] is zero at first (171).  Element i+numLocked of the buffer,
    the squared norm, is left out.  Arrays as the columns from V and locked; the
    column itself is [x]. *)
Definition set_at (off n : nat) (y z : arr) : arr :=
  fun q => if (off <=? q) && (q <? off + n) then z (q - off) else y q.
Definition ortho_pass (nl : nat -> nat) (V : nat -> arr) (ldV : nat -> nat) (i : nat)
    (locked : nat -> arr) (ldLocked : nat -> nat) (numLocked : nat) (x Bx : nat -> arr)
    : option (arr * (nat -> arr)) :=
  match gather np (fun p =>
      rbind (if 0 <? i then gemv_ddh trC (nl p) i (k1 o) (V p) (ldV p) (Bx p) 1 (k0 o) (fun _ => k0 o) 1
             else Done (fun _ => k0 o))
        (fun ov => if 0 <? numLocked then
           rbind (gemv_ddh trC (nl p) numLocked (k1 o) (locked p) (ldLocked p) (Bx p) 1 (k0 o)
                    (shift i ov) 1)
             (fun z => Done (set_at i numLocked ov z))
         else Done ov)) with
  | None => None
  | Some bufs =>
    let ov := global_sum bufs in
    match gather np (fun p =>
      rbind (if 0 <? numLocked then gemv_dhd trN (nl p) numLocked (kopp o (k1 o)) (locked p) (ldLocked p)
                                      (shift i ov) 1 (k1 o) (x p) 1
             else Done (x p))
        (fun x1 => if 0 <? i then gemv_dhd trN (nl p) i (kopp o (k1 o)) (V p) (ldV p) ov 1 (k1 o) x1 1
                   else Done x1)) with
    | None => None
    | Some x' => Some (ov, x')
    end
  end.
End Blas.
