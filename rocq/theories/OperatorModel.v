(** Applying the user's operators: matrixMatvec, massMatrixMatvec and
    applyPreconditioner (src/eigs/auxiliary_eigs.c) with the precision
    conversions around the callbacks (src/linalg/auxiliary.c,
    src/linalg/blaslapack.c).

    A buffer is a block of columns tagged with the element type it was written
    with; reading it as another type is undefined behaviour ([None]), as is
    touching a freed buffer or running past its end.  Padding rows (leading
    dimension minus nLocal) and timers are not modelled. *)
From Coq Require Import List Arith Bool ZArith Lia.
From Verif Require Import Base.
Import ListNotations.

(** primme_op_datatype, include/primme_eigs.h *)
Inductive dtype := op_default | op_half | op_float | op_double | op_quad | op_int.
Definition dtype_eqb (a b : dtype) : bool :=
  match a, b with
  | op_default, op_default | op_half, op_half | op_float, op_float
  | op_double, op_double | op_quad, op_quad | op_int, op_int => true
  | _, _ => false
  end.
Lemma dtype_eqb_spec : forall a b, reflect (a = b) (dtype_eqb a b).
Proof. intros [] []; constructor; congruence. Qed.

(** Which operator a callback invocation is for. *)
Inductive opkind := op_matrix | op_mass | op_precond.

(** Return codes (include/primme_eigs.h). *)
Definition PRIMME_USER_FAILURE : Z := (-41)%Z.
Definition PRIMME_FUNCTION_UNAVAILABLE : Z := (-44)%Z.

Section Operators.
Context {val : Type}.
(** Conversion of one element between two types. *)
Variable cast : dtype -> dtype -> val -> val.
(** Contents of freshly allocated memory. *)
Variable junk : list val.
(** PRIMME_OP_SCALAR: the precision the solver was compiled for, and which other
    types the build supports (PRIMME_WITHOUT_FLOAT, SUPPORTED_HALF_TYPE, ...). *)
Variable working : dtype.
Variable supported : dtype -> bool.
(** nLocal = 0 on a process without rows. *)
Variable no_rows : bool.

Definition cols := list (list val).
Record buf := mkBuf { bty : dtype; bcols : cols }.
Record heap := mkHeap { cell : nat -> option buf; next : nat }.
(** A pointer to a column: buffer and column number. *)
Definition ptr := (nat * nat)%type.
Definition ptr_eqb (p q : ptr) : bool := (fst p =? fst q) && (snd p =? snd q).

Definition set (h : heap) (b : nat) (x : option buf) : heap :=
  mkHeap (fun c => if c =? b then x else cell h c) (next h).
Definition splice (l : cols) (c : nat) (new : cols) : cols :=
  firstn c l ++ new ++ skipn (c + length new) l.

Definition read_cols (h : heap) (t : dtype) (p : ptr) (n : nat) : option cols :=
  b <- cell h (fst p);
  if dtype_eqb (bty b) t && (snd p + n <=? length (bcols b))
  then Some (firstn n (skipn (snd p) (bcols b))) else None.
Definition write_cols (h : heap) (t : dtype) (p : ptr) (new : cols) : option heap :=
  b <- cell h (fst p);
  if dtype_eqb (bty b) t && (snd p + length new <=? length (bcols b))
  then Some (set h (fst p) (Some (mkBuf t (splice (bcols b) (snd p) new)))) else None.
Definition alloc (h : heap) (t : dtype) (n : nat) : heap * ptr :=
  (mkHeap (fun c => if c =? next h then Some (mkBuf t (repeat junk n)) else cell h c)
          (S (next h)), (next h, 0)).
(** Num_free: the pointer must be the start of a live allocation. *)
Definition free (h : heap) (p : ptr) : option heap :=
  if snd p =? 0 then b <- cell h (fst p); Some (set h (fst p) None) else None.

Definition norm (t : dtype) : dtype := match t with op_default => working | _ => t end.

(** Num_copy_Tmatrix, src/linalg/blaslapack.c 344-388, for the instance of the
    library whose SCALAR is [yt]. *)
Definition copy_T (h : heap) (x : ptr) (xt : dtype) (n : nat) (y : ptr) (yt : dtype)
    : option (Z * heap) :=
  if dtype_eqb xt yt then                                       (* 351-354 *)
    if no_rows || (n =? 0) then Some (0%Z, h) else
    v <- read_cols h yt x n; h' <- write_cols h yt y v; Some (0%Z, h')
  else if no_rows || (n =? 0) then Some (0%Z, h)                (* 356 *)
  else if ptr_eqb x y then Some (PRIMME_FUNCTION_UNAVAILABLE, h) (* 360 *)
  else if supported xt then                                     (* 374-383 *)
    v <- read_cols h xt x n;
    h' <- write_cols h yt y (map (map (cast xt yt)) v);
    Some (0%Z, h')
  else Some (PRIMME_FUNCTION_UNAVAILABLE, h).

(** Num_matrix_astype, src/linalg/auxiliary.c 79-142.  [do_alloc] is 1, 0 or -1.
    Returns the code, the heap and the pointer left in [*y]. *)
Definition astype (h : heap) (x : ptr) (n : nat) (xt : dtype) (y : ptr) (yt : dtype)
    (do_alloc : Z) (do_copy : bool) : option (Z * heap * ptr) :=
  let xt := norm xt in let yt := norm yt in                     (* 85-86 *)
  if negb (dtype_eqb yt working) && negb (supported yt)         (* 90-107 *)
  then Some (PRIMME_FUNCTION_UNAVAILABLE, h, y)
  else if dtype_eqb xt yt && negb (do_alloc =? 0)%Z             (* 111-115 *)
  then Some (0%Z, h, x)
  else
    let '(h1, y0) := if (0 <? do_alloc)%Z then alloc h yt n else (h, y) in  (* 119-131 *)
    r <- (if do_copy then copy_T h1 x xt n y0 yt else Some (0%Z, h1));  (* 133-135 *)
    let '(code, h2) := r in
    if negb (code =? 0)%Z then Some (code, h2, y0)
    else if (do_alloc <? 0)%Z && negb (ptr_eqb x y0)            (* 139 *)
    then h3 <- free h2 x; Some (0%Z, h3, y0)
    else Some (0%Z, h2, y0).

(** What the user supplies: block in, block out and the error flag; it may depend
    on everything it was asked before. *)
Record call := mkCall { c_op : opkind; c_type : dtype; c_in : cols; c_ierr : Z }.
Variable user : list call -> opkind -> cols -> cols * Z.

Record ostate := mkOst {
  o_heap : heap; o_matvecs : Z; o_preconds : Z;
  o_trace : list call (* most recent first *) }.
Record oparams := mkOp {
  matrix_type : dtype; mass_type : dtype; precond_type : dtype;
  use_precond : bool (* correctionParams.precondition *) }.
Variable prm : oparams.

Definition apart (p q : ptr) (n : nat) : bool :=
  negb (fst p =? fst q) || (snd p + n <=? snd q) || (snd q + n <=? snd p).

(** One invocation of a user callback on the block at [v], writing at [w].  The
    callback must produce as many columns as it was given; input and output may
    not overlap. *)
Definition invoke (s : ostate) (k : opkind) (t : dtype) (v w : ptr) (n : nat)
    : option (Z * ostate) :=
  if apart v w n then
    x <- read_cols (o_heap s) t v n;
    let '(y, ierr) := user (o_trace s) k x in
    if length y =? n then
      h <- write_cols (o_heap s) t w y;
      Some (ierr, mkOst h (o_matvecs s) (o_preconds s) (mkCall k t x ierr :: o_trace s))
    else None
  else None.

Definition with_heap (s : ostate) (h : heap) : ostate :=
  mkOst h (o_matvecs s) (o_preconds s) (o_trace s).
(** CHKERR: leave with the code if it is not zero.  The release of the frame's
    allocations on that path is modelled in FrameModel. *)
Definition guard {A} (r : option (Z * heap * A)) (s : ostate)
    (k : heap -> A -> option (Z * ostate)) : option (Z * ostate) :=
  z <- r; let '(code, h, a) := z in
  if (code =? 0)%Z then k h a else Some (code, with_heap s h).

Definition free_unless_same (p q : ptr) (h : heap) : option heap :=
  if ptr_eqb p q then Some h else free h q.

(** The common body of matrixMatvec (auxiliary_eigs.c 183-230) and
    massMatrixMatvec (250-297).  [t] is the type the operands are converted to
    and [tback] the type the copy-back at 219-221/286-288 claims for the result. *)
Definition apply_op (k : opkind) (t tback : dtype) (s : ostate) (V W : ptr)
    (basisSize : nat) (blockSize : Z) : option (Z * ostate) :=
  if (blockSize <=? 0)%Z then Some (0%Z, s)                     (* 189-190 *)
  else
    let n := Z.to_nat blockSize in
    let Vb := (fst V, snd V + basisSize) in                     (* 199 *)
    let Wb := (fst W, snd W + basisSize) in
    guard (astype (o_heap s) Vb n working (0, 0) t 1 true) s (fun h1 V0 =>   (* 202 *)
    guard (astype h1 Wb n working (0, 0) t 1 false) s (fun h2 W0 =>          (* 205 *)
    r <- invoke (with_heap s h2) k (norm t) V0 W0 n;            (* 212-215 *)
    let '(ierr, s1) := r in
    if negb (ierr =? 0)%Z then Some (PRIMME_USER_FAILURE, s1)
    else
    guard (astype (o_heap s1) W0 n tback Wb working 0 true) s1 (fun h3 _ =>  (* 219 *)
    h4 <- free_unless_same Vb V0 h3;                            (* 223 *)
    h5 <- free_unless_same Wb W0 h4;                            (* 224 *)
    Some (0%Z, mkOst h5 (o_matvecs s1 + blockSize) (o_preconds s1) (o_trace s1)))))  (* 227 *).

Definition matrixMatvec := apply_op op_matrix (matrix_type prm) (matrix_type prm).
(** 286-288: the copy-back names matrixMatvec_type. *)
Definition massMatrixMatvec := apply_op op_mass (mass_type prm) (matrix_type prm).

(** applyPreconditioner, auxiliary_eigs.c 317-364. *)
Definition applyPreconditioner (s : ostate) (V W : ptr) (blockSize : Z)
    : option (Z * ostate) :=
  if (blockSize <=? 0)%Z then Some (0%Z, s)
  else
    let n := Z.to_nat blockSize in
    if use_precond prm then
      let t := precond_type prm in
      guard (astype (o_heap s) V n working (0, 0) t 1 true) s (fun h1 V0 =>
      guard (astype h1 W n working (0, 0) t 1 false) s (fun h2 W0 =>
      r <- invoke (with_heap s h2) op_precond (norm t) V0 W0 n;
      let '(ierr, s1) := r in
      if negb (ierr =? 0)%Z then Some ((-1)%Z, s1)
      else
      let s2 := mkOst (o_heap s1) (o_matvecs s1) (o_preconds s1 + blockSize) (o_trace s1) in
      h3 <- free_unless_same V V0 (o_heap s2);
      guard (astype h3 W0 n t W working (-1) true) s2 (fun h4 _ =>
      Some (0%Z, with_heap s2 h4))))
    else
      if no_rows then Some (0%Z, s) else
      x <- read_cols (o_heap s) working V n;
      h <- write_cols (o_heap s) working W x;
      Some (0%Z, with_heap s h).

(** A history of operator applications: the solver stops at the first nonzero
    code (CHKERR in every caller). *)
Inductive request :=
| Matvec (V W : ptr) (basisSize : nat) (blockSize : Z)
| Mass (V W : ptr) (basisSize : nat) (blockSize : Z)
| Precond (V W : ptr) (blockSize : Z).
Definition target_of (r : request) : ptr :=
  match r with Matvec _ W _ _ | Mass _ W _ _ | Precond _ W _ => W end.
(** Passing a result pointer that was never allocated is undefined behaviour. *)
Definition serve (s : ostate) (r : request) : option (Z * ostate) :=
  if fst (target_of r) <? next (o_heap s) then
    match r with
    | Matvec V W b n => matrixMatvec s V W b n
    | Mass V W b n => massMatrixMatvec s V W b n
    | Precond V W n => applyPreconditioner s V W n
    end
  else None.
Fixpoint run_ops (s : ostate) (l : list request) : option (Z * ostate) :=
  match l with
  | [] => Some (0%Z, s)
  | r :: l' =>
      z <- serve s r; let '(code, s') := z in
      if (code =? 0)%Z then run_ops s' l' else Some (code, s')
  end.
End Operators.
