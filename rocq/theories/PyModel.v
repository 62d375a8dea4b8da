(** The Python interface: [eigsh] and [svds] of Python/primme.pyx around the C solvers.
    Line numbers are of that file.

    Conventions: a matrix is the list of its columns; members of the structures and
    flags are as in ParamsModel; values (sigma, eigenvalues, norms) are of any type [V],
    elements of vectors of any type [K].  An exception raised before the solver is called
    is [Refused]; which class is not distinguished.  Addresses of callbacks and objects are
    nonzero numbers. *)
From Coq Require Import ZArith List Bool Lia.
From Verif Require Import Base FieldsModel ParamsModel SvdsModel.
Import ListNotations.
Open Scope Z_scope.

(** x[a:b] of Python, for 0 <= a <= b *)
Definition slice {X} (a b : nat) (l : list X) : list X := firstn (b - a) (skipn a l).

(** ** eigsh *)
Section Eigsh.
Context {V K : Type}.
Variables (vzero : V) (kzero : K).

(** the argument [which] *)
Inductive which_arg := LM | LA | SA | SM | CLT | CGT | Number (v : V) | Other.

(** numpy types of A.dtype; [TOther] e.g. float16 or longdouble *)
Inductive dtype := TInt | TFloat | TDouble | TComplex | TComplexDouble | TOther.
(** the C routine called, 694-702 *)
Inductive routine := sprimme | dprimme | cprimme | zprimme.

Record eigsh_args := {
  a_rows : Z; a_cols : Z;                     (* A.shape *)
  a_type : dtype;
  a_k : Z;
  a_M : option Z;                             (* M.shape[0] *)
  a_sigma : option V; a_which : which_arg;
  a_v0 : option (Z * list (list K));          (* rows, columns *)
  a_ncv : option Z; a_maxiter : option Z; a_tol : Z;
  a_OPinv : option (Z * Z);
  a_lock : option (Z * list (list K));
  a_maxBlockSize : Z; a_minRestartSize : Z; a_maxPrevRetain : Z;
  a_method : option (option Z);               (* Some None: no such method *)
  a_kargs : option (list (field * Z));        (* None: some name or value is not valid *)
  a_convtest : bool; a_history : bool;
  a_return_eigenvectors : bool; a_return_stats : bool;
  a_return_unconverged : bool; a_raise_for_unconverged : bool }.

(** What the solver is called with: the structure, the content of targetShifts, and the
    arrays. *)
Record eigsh_call := {
  c_routine : routine;
  c_params : params;
  c_shift : option V;
  c_evals : list V; c_evecs : list (list K); c_norms : list V }.

(** What the solver leaves: code, structure, arrays, and whether a Python function called
    by it raised an exception. *)
Record left := {
  l_err : Z; l_params : params;
  l_evals : list V; l_evecs : list (list K); l_norms : list V;
  l_exception : bool }.

Inductive answer :=
| Refused
| PrimmeError (err : Z)
| Returned (w : list V) (v : option (list (list K))) (rnorms : option (list V)).

(** 505-540: the member target and sigma. *)
Definition eigsh_target (w : which_arg) (sigma : option V) : option (Z * option V) :=
  let default := match sigma with Some s => Some s | None => Some vzero end in
  match w with
  | LM => Some (primme_largest_abs, default)
  | LA => Some (primme_largest, None)
  | SA => Some (primme_smallest, None)
  | SM => Some (primme_closest_abs, default)
  | CLT => Some (primme_closest_leq, default)
  | CGT => Some (primme_closest_geq, default)
  | Number v => match sigma with Some _ => None | None => Some (primme_closest_abs, Some v) end
  | Other => None
  end.

(** 597-643 and 694-702 *)
Definition routine_of (t : dtype) : option routine :=
  match t with
  | TInt | TDouble => Some dprimme
  | TFloat => Some sprimme
  | TComplex => Some cprimme
  | TComplexDouble => Some zprimme
  | TOther => None      (* the array is not assigned to any of the views of 650-653 *)
  end.

Definition if_given {X} (x : option X) (f : X -> list (field * Z)) : list (field * Z) :=
  match x with Some v => f v | None => [] end.

(** 483-570: the assignments to the structure up to the options, in order. *)
Definition early_members (a : eigsh_args) (t : Z) (s : option V) : list (field * Z) :=
  [(P_matrix, 1); (P_n, a_rows a)]
  ++ if_given (a_M a) (fun _ => [(P_massMatrix, 1)])
  ++ [(P_numEvals, a_k a); (P_target, t)]
  ++ if_given s (fun _ => [(P_numTargetShifts, 1); (P_targetShifts, 1)])
  ++ [(P_eps, a_tol a)]
  ++ if_given (a_ncv a) (fun v => [(P_maxBasisSize, v)])
  ++ if_given (a_maxiter a) (fun v => [(P_maxMatvecs, v)])
  ++ (match a_OPinv a with
      | Some _ => [(P_precondition, 1); (P_preconditioner, 1)]
      | None => [(P_precondition, 0)]
      end)
  ++ if_given (a_lock a) (fun l => [(P_numOrthoConst, Z.min (Z.of_nat (length (snd l))) (a_rows a))])
  ++ (if a_convtest a then [(P_convtest, 1)] else []).

(** 593-594, 601-643, 674-688: those after the options. *)
Definition late_members (a : eigsh_args) : list (field * Z) :=
  (if a_history a then [(P_monitor, 1)] else [])
  ++ [(P_matrixMatvec, 1)]
  ++ if_given (a_M a) (fun _ => [(P_massMatrixMatvec, 1)])
  ++ [(P_applyPreconditioner, 1)]
  ++ (if a_convtest a then [(P_convTestFun, 1)] else [])
  ++ (if a_history a then [(P_monitorFun, 1)] else [])
  ++ if_given (a_v0 a) (fun v => [(P_initSize, Z.min (Z.of_nat (length (snd v))) (a_k a))])
  ++ (if a_maxBlockSize a =? 0 then [] else [(P_maxBlockSize, a_maxBlockSize a)])
  ++ (if a_minRestartSize a =? 0 then [] else [(P_minRestartSize, a_minRestartSize a)])
  ++ (if a_maxPrevRetain a =? 0 then [] else [(P_maxPrevRetain, a_maxPrevRetain a)]).

(** The first [c] columns of a matrix given by the user; numpy refuses other numbers of
    rows (one row, which it would repeat, is not modelled). *)
Definition given (n : Z) (c : nat) (x : option (Z * list (list K))) : option (list (list K)) :=
  match x with
  | None => Some []
  | Some (rows, cols) => if rows =? n then Some (firstn c cols) else None
  end.

(** 484-692; [None]: an exception is raised. *)
Definition eigsh_setup (a : eigsh_args) : option eigsh_call :=
  if negb (a_rows a =? a_cols a) then None
  else if match a_M a with Some r => negb (r =? a_rows a) | None => false end then None
  else if (a_k a <=? 0) || (a_k a >? a_rows a) then None
  else
    ts <- eigsh_target (a_which a) (a_sigma a) ;
    let '(t, s) := ts in
    if match a_OPinv a with Some (r, c) => negb (r =? c) || negb (r =? a_rows a) | None => false end then None
    else
      let n := a_rows a in
      let k := Z.to_nat (a_k a) in
      let noc := match a_lock a with Some (_, l) => Nat.min (length l) (Z.to_nat n) | None => O end in
      locked <- given n noc (a_lock a) ;
      options <- a_kargs a ;
      let p := sets (sets (sets (primme_initialize 1) (early_members a t s)) options) (late_members a) in
      r <- routine_of (a_type a) ;
      guesses <- given n k (a_v0 a) ;
      let zeros := repeat (repeat kzero (Z.to_nat n)) (k - length guesses) in
      p <- (match a_method a with
            | None => Some p
            | Some None => None
            | Some (Some m) => r <- primme_set_method m p ; Some (snd r)
            end) ;
      Some {| c_routine := r; c_params := p; c_shift := s;
              c_evals := repeat vzero k; c_evecs := locked ++ guesses ++ zeros;
              c_norms := repeat vzero k |}.

(** 705-734 *)
Definition eigsh_finish (a : eigsh_args) (l : left) : answer :=
  let noc := match a_lock a with Some (_, x) => Nat.min (length x) (Z.to_nat (a_rows a)) | None => O end in
  if negb (l_err l =? 0) && l_exception l then PrimmeError (l_err l)
  else if (l_err l =? -3) && negb (a_return_unconverged a) && a_raise_for_unconverged a
  then PrimmeError (l_err l)
  else
    let initSize := if a_return_unconverged a then Z.to_nat (a_k a) else Z.to_nat (l_params l P_initSize) in
    Returned (slice 0 initSize (l_evals l))
      (if a_return_eigenvectors a then Some (slice noc (noc + initSize) (l_evecs l)) else None)
      (if a_return_stats a then Some (slice 0 initSize (l_norms l)) else None).

Definition eigsh (solve : eigsh_call -> left) (a : eigsh_args) : answer :=
  match eigsh_setup a with
  | None => Refused
  | Some c => eigsh_finish a (solve c)
  end.
End Eigsh.
Arguments which_arg : clear implicits.
Arguments eigsh_args : clear implicits.
Arguments eigsh_call : clear implicits.
Arguments left : clear implicits.
Arguments answer : clear implicits.

(** ** svds *)
Section Svds.
Context {V K : Type}.
Variable vzero : V.
Variable kconj : K -> K.

Record svds_args := {
  s_m : nat; s_n : nat; s_k : Z;
  s_u0 : option (list (list K)); s_v0 : option (list (list K));     (* columns *)
  s_orthou0 : option (list (list K)); s_orthov0 : option (list (list K));
  s_raise_for_unconverged : bool; s_return_singular_vectors : bool }.

(** The columns have [r] elements each. *)
Definition rows_are (r : nat) (x : option (list (list K))) : bool :=
  match x with Some l => forallb (fun c => Nat.eqb (length c) r) l | None => true end.

(** check_pair, 1325-1344: if only one of the two is given the other is computed, with a
    method LinearOperator does not have (matmult, 1339 and 1342), which raises. *)
Definition check_pair (m n : nat) (u v : option (list (list K))) : option (option (list (list K) * list (list K))) :=
  if negb (rows_are m u && rows_are n v) then None
  else match u, v with
  | None, None => Some None
  | Some u, Some v => if Nat.eqb (length u) (length v) then Some (Some (u, v)) else None
  | _, _ => None
  end.

(** numpy: x[:,:] = y for an x of [c] columns; one column is repeated. *)
Definition assign_columns (c : nat) (y : list (list K)) : option (list (list K)) :=
  if Nat.eqb (length y) c then Some y
  else match y with [z] => Some (repeat z c) | _ => None end.

(** 1425-1435: the array svecs; [mem] is the memory of np.empty. *)
Definition svds_arrays (a : svds_args) (mem : list K) : option (nat * nat * list K) :=
  let m := s_m a in let n := s_n a in let k := Z.to_nat (s_k a) in
  if (s_k a <=? 0) || (s_k a >? Z.of_nat (Nat.min n m)) then None
  else
    ortho <- check_pair m n (s_orthou0 a) (s_orthov0 a) ;
    let noc := match ortho with Some (u, _) => Nat.min (length u) (Nat.min m n) | None => O end in
    guess <- check_pair m n (s_u0 a) (s_v0 a) ;
    let init := match guess with Some (u, _) => Nat.min (length u) k | None => O end in
    mem <- (match guess with
            | None => Some mem
            | Some (u0, v0) =>
                mem <- write_at mem (m * noc) (concat (firstn init u0)) ;
                write_at mem (m * (noc + init) + n * noc) (concat (firstn init v0))
            end) ;
    mem <- (match ortho with
            | None => Some mem
            | Some (u, v) =>
                mem <- write_at mem 0 (concat (firstn noc u)) ;
                (* 1435: orthov0[:,:initSize] *)
                y <- assign_columns noc (firstn init v) ;
                write_at mem (m * (noc + init)) (concat y)
            end) ;
    Some (noc, init, mem).

(** 1317-1319: the limit on the products; maxiter*(maxBlockSize if maxBlockSize else 1)/2,
    taken to an integer by the assignment to v_int. *)
Definition svds_maxMatvecs (maxiter maxBlockSize : Z) : Z :=
  Z.quot (maxiter * (if maxBlockSize =? 0 then 1 else maxBlockSize)) 2.

(** What the solver leaves: code, number of triplets (initSize), constraints, arrays. *)
Record svds_left := {
  sl_err : Z; sl_init : nat; sl_noc : nat;
  sl_svals : list V; sl_svecs : list K; sl_exception : bool }.

Inductive svds_answer :=
| SRefused
| PrimmeSvdsError (err : Z)
| SReturned (s : list V) (uv : option (list (list K) * list (list K))).

(** The columns of [r] elements of a piece of memory (reshape with order 'F'). *)
Fixpoint columns_of (r c : nat) (mem : list K) : list (list K) :=
  match c with
  | O => []
  | S c => firstn r mem :: columns_of r c (skipn r mem)
  end.

(** 1449-1478; the rows of the third matrix returned are the second list here. *)
Definition svds_finish (a : svds_args) (l : svds_left) : svds_answer :=
  let m := s_m a in let n := s_n a in
  if negb (sl_err l =? 0) && sl_exception l then PrimmeSvdsError (sl_err l)
  else if (sl_err l =? -3) && s_raise_for_unconverged a then PrimmeSvdsError (sl_err l)
  else
    let c := sl_init l in let noc := sl_noc l in
    SReturned (slice 0 c (sl_svals l))
      (if s_return_singular_vectors a
       then Some (columns_of m c (slice (m * noc) (m * (noc + c)) (sl_svecs l)),
                  map (map kconj)
                    (columns_of n c (slice (m * (noc + c) + n * noc) ((m + n) * (noc + c)) (sl_svecs l))))
       else None).

Definition svds (solve : nat -> nat -> list K -> svds_left) (a : svds_args) (mem : list K) : svds_answer :=
  match svds_arrays a mem with
  | None => SRefused
  | Some (noc, init, mem) => svds_finish a (solve noc init mem)
  end.
End Svds.
Arguments svds_args : clear implicits.
Arguments svds_left : clear implicits.
Arguments svds_answer : clear implicits.

(** ** Callbacks *)
Section Callbacks.
Context {K : Type}.

(** An array of numpy returned by the user's function: its elements in memory, by rows
    (order 'C') or by columns (order 'F'). *)
Record ndarray := { nd_rows : nat; nd_cols : nat; nd_byrows : bool; nd_data : list K }.
(** its element (i, j) *)
Definition item (x : ndarray) (i j : nat) : option K :=
  nth_error (nd_data x) (if nd_byrows x then i * nd_cols x + j else j * nd_rows x + i)%nat.

(** x_view[0:n,:], 231-232: [b] columns of [n] elements, [ld] apart. *)
Definition view (n b : nat) (x : nat -> K) (ld : nat) : ndarray :=
  {| nd_rows := n; nd_cols := b; nd_byrows := false;
     nd_data := concat (map (fun j => map (fun i => x (ld * j + i)%nat) (seq 0 n)) (seq 0 b)) |}.

(** y[:n,:] = z: element by element; [None] if numpy refuses the shape (it would repeat single
    rows and columns, which is not modelled).  The result is the memory of [y]. *)
Definition store (n b ldy : nat) (z : ndarray) (y : nat -> option K) : option (nat -> option K) :=
  if (Nat.eqb (nd_rows z) n && Nat.eqb (nd_cols z) b)%bool
  then Some (fun q => if ((q mod ldy <? n) && (q / ldy <? b))%nat%bool then item z (q mod ldy) (q / ldy) else y q)
  else None.
(** 213-234, c_matvec_gen_numpy, and 986-1006, c_svds_matvec_numpy ([n] rows read, [m] written). *)
Definition matvec_numpy (f : ndarray -> ndarray) (n m b : nat) (x : nat -> K) (ldx : nat)
  (y : nat -> option K) (ldy : nat) : option (nat -> option K) :=
  store m b ldy (f (view n b x ldx)) y.

(** 1009-1033, c_svds_precond_numpy: the memory of what the preconditioner returns is read
    by columns, np.ndarray((n,b), buffer=..., order='F'); [x] is read with [ldy], 1021. *)
Definition as_columns (n b : nat) (z : ndarray) : option ndarray :=
  if (n * b <=? length (nd_data z))%nat
  then Some {| nd_rows := n; nd_cols := b; nd_byrows := false; nd_data := nd_data z |}
  else None.
Definition svds_precond (f : ndarray -> ndarray) (n b : nat) (x : nat -> K) (ldx : nat)
  (y : nat -> option K) (ldy : nat) : option (nat -> option K) :=
  z <- as_columns n b (f (view n b x ldy)) ;
  store n b ldy z y.
End Callbacks.
Arguments ndarray : clear implicits.
