(** The R interface: eigs_sym of R/R/eigs.R, svds of R/R/svds.R and the routines of
    R/src/primmeR.cpp between them and the C solvers.  Line numbers are of those files, named
    E, S and P.

    Conventions: a dense matrix of guesses or constraints is the list of its columns; a matrix
    argument A or B keeps its numbers as R stores them, by columns, one [D] (double) per
    element of a real matrix and two per element of a complex one.  [mk re im] is the number
    of the field [K] with these parts.  An error raised by R or Rcpp is distinguished only by
    whether it carries the code of the solver.  A read outside an object is [Undefined]. *)
From Coq Require Import ZArith List Bool Lia.
From Verif Require Import Base FieldsModel ParamsModel SvdsModel PyModel.
Import ListNotations.
Open Scope nat_scope.

(** real (double) or complex *)
Inductive kind := Real | Cplx.
Definition same_kind (a b : kind) : bool :=
  match a, b with Real, Real | Cplx, Cplx => true | _, _ => false end.
(** isreal as a kind *)
Definition kind_of (isreal : bool) : kind := if isreal then Real else Cplx.

(** Classes of a matrix argument: a plain matrix of doubles or complex numbers (integer and
    logical ones are converted first, E 224-227, S 216-219); dgeMatrix; dgCMatrix and dsCMatrix;
    diagonal (ddiMatrix); any other class with a product. *)
Inductive class := Plain | GeMatrix | CSparse | Diagonal | OtherClass.

(** include/primme_svds.h 46-64: targets and operators of the singular value solver *)
Definition primme_svds_largest : Z := 0.
Definition primme_svds_smallest : Z := 1.
Definition primme_svds_closest_abs : Z := 2.
Definition primme_svds_op_AtA : Z := 1.
Definition primme_svds_op_AAt : Z := 2.
Definition primme_svds_op_augmented : Z := 3.

Section R.
Context {D K : Type}.
Variables (d0 : D) (mk : D -> D -> K).
Variables (kzero : K) (kadd kmul : K -> K -> K) (cj kre : K -> K).

(** A matrix argument.  The elements of classes of the package Matrix are given as if stored
    in full; their own storage is not modelled. *)
Record rmatrix := {
  r_class : class; r_kind : kind; r_rows : nat; r_cols : nat; r_mem : list D }.

(** The element (i,j) of a column-major array of [rows] rows, read as numbers of kind [k]. *)
Definition entry (k : kind) (rows : nat) (mem : list D) (i j : nat) : option K :=
  let p := i + j * rows in
  match k with
  | Real => d <- get mem p ; Some (mk d d0)
  | Cplx => re <- get mem (2 * p) ; im <- get mem (2 * p + 1) ; Some (mk re im)
  end.

(** the products of a list that must all be defined *)
Fixpoint collect {X} (l : list (option X)) : option (list X) :=
  match l with
  | [] => Some []
  | x :: l => y <- x ; ys <- collect l ; Some (y :: ys)
  end.

(** sum over j < cols of a j * x j *)
Definition row_times (cols : nat) (a : nat -> option K) (x : list K) : option K :=
  fold_left (fun s j => s <- s ; e <- a j ; v <- get x j ; Some (kadd s (kmul e v)))
            (seq 0 cols) (Some kzero).

Definition gemv (rows cols : nat) (a : nat -> nat -> option K) (x : list K) : option (list K) :=
  collect (map (fun i => row_times cols (a i) x) (seq 0 rows)).

(** P 91-113, xhemm with side L and triangle L: dsymv/dsymm or zhemv/zhemm read the lower
    triangle only; the complex routines take the diagonal as real. *)
Definition hemm_entry (k : kind) (n : nat) (mem : list D) (i j : nat) : option K :=
  if j <? i then entry k n mem i j
  else if i <? j then
    e <- entry k n mem j i ; Some (match k with Real => e | Cplx => cj e end)
  else
    e <- entry k n mem i i ; Some (match k with Real => e | Cplx => kre e end).

(** What comes back from a product. *)
Inductive outcome := Value (y : list K) | Raised | Undefined.
Definition defined (y : option (list K)) : outcome :=
  match y with Some y => Value y | None => Undefined end.

(** What a function of R returns for one column: its kind and its elements. *)
Record fresult := { f_kind : kind; f_values : list K }.

(** P 191-272, copyMatrix and copyMatrix_SEXP: complex values do not fit a real run; the
    dimensions must agree. *)
Definition copy_result (k : kind) (rows : nat) (r : fresult) : outcome :=
  match k, f_kind r with
  | Real, Cplx => Raised
  | _, _ => if length (f_values r) =? rows then Value (f_values r) else Raised
  end.

(** An argument A or B: a function or a matrix. *)
Inductive oper := OFun (f : list K -> fresult) | OMat (m : rmatrix).
(** What is handed to C: a matrix as it is, a function of the user, or function(x) A %*% x. *)
Inductive handed := HRaw (m : rmatrix) | HFun (f : list K -> fresult) | HTimes (m : rmatrix).

(** E 231-242 and S 222-243: the kind suggested by an argument. *)
Definition suggested (o : oper) : kind :=
  match o with OFun _ => Cplx | OMat m => r_kind m end.

(** E 235-242 for A, E 265-276 for B. *)
Definition hand (isreal : option bool) (o : oper) : handed :=
  match o with
  | OFun f => HFun f
  | OMat m =>
      let agrees := match isreal with None => true | Some b => same_kind (kind_of b) (r_kind m) end in
      match r_class m with
      | Plain | GeMatrix | CSparse => if agrees then HRaw m else HTimes m
      | _ => HTimes m
      end
  end.

(** E 346-352: the kind of the run. *)
Definition run_kind (isreal : option bool) (a : oper) : kind :=
  match isreal with Some b => kind_of b | None => suggested a end.

(** P 491-580 and the choice of P 659-715: the product of one column [x] in a run of kind [k]
    and order [n].  CHM_DN checks the size of the elements (ASSERT stops); the product of
    CHOLMOD is taken to be the exact one, and to raise when the kinds differ (its error
    handler is R's).  A %*% x is complex when either factor is. *)
Definition product (k : kind) (n : nat) (h : handed) (x : list K) : outcome :=
  match h with
  | HFun f => copy_result k n (f x)
  | HTimes m =>
      match gemv (r_rows m) (r_cols m) (entry (r_kind m) (r_rows m) (r_mem m)) x with
      | None => Raised
      | Some y => copy_result k n
          {| f_kind := match k, r_kind m with Real, Real => Real | _, _ => Cplx end; f_values := y |}
      end
  | HRaw m =>
      match r_class m with
      | Plain => defined (gemv n n (hemm_entry k n (r_mem m)) x)
      | GeMatrix => if same_kind k (r_kind m) then defined (gemv n n (hemm_entry k n (r_mem m)) x)
                    else Raised
      | _ => if same_kind k (r_kind m)
             then defined (gemv n n (entry (r_kind m) n (r_mem m)) x) else Raised
      end
  end.

(** ** eigs_sym *)
Section Eigs.
Context {V : Type}.
Variable vzero : V.
Variable solve : rmatrix -> list K -> fresult.     (* solve(prec, x) of R *)

Inductive rwhich := WLA | WLM | WSA | WCGT | WCLT | WSM | WNumeric (l : list V) | WBad.

Record eigs_args := {
  e_A : oper; e_n : nat;                      (* opts$n when A is a function *)
  e_B : option oper; e_NEig : Z;
  e_which : rwhich; e_shifts : option (list V);
  e_convTest : bool;                          (* tol is a function *)
  e_x0 : option (nat * list (list K)); e_ortho : option (nat * list (list K));  (* rows, columns *)
  e_prec : option oper; e_isreal : option bool }.

Record eigs_call := {
  c_kind : kind; c_n : nat; c_A : handed; c_B : option handed;
  c_target : Z; c_shifts : list V;            (* numTargetShifts is its length *)
  c_numEvals : nat; c_numOrthoConst : nat; c_initSize : nat;
  c_evecs : list (list K);                    (* the columns of the array *)
  c_prec : option (list K -> fresult); c_convTest : bool }.

(** E 208-221 *)
Definition order_of (a : eigs_args) : option nat :=
  match e_A a with
  | OFun _ => Some (e_n a)
  | OMat m => if r_rows m =? r_cols m then Some (r_rows m) else None
  end.

(** E 286-305 *)
Definition r_target (w : rwhich) (shifts : option (list V)) : option (Z * list V) :=
  let given := match shifts with Some l => l | None => [] end in
  let or0 := match shifts with Some l => l | None => [vzero] end in
  match w with
  | WLA => Some (primme_largest, given)
  | WLM => Some (primme_largest_abs, given)
  | WSA => Some (primme_smallest, given)
  | WCGT => Some (primme_closest_geq, or0)
  | WCLT => Some (primme_closest_leq, or0)
  | WSM => Some (primme_closest_abs, or0)
  | WNumeric l => Some (primme_closest_abs, l)
  | WBad => None
  end.

(** E 319-329 and P 629-633: a matrix of guesses or constraints. *)
Definition block_of (n : nat) (x : option (nat * list (list K))) : option (list (list K)) :=
  match x with
  | None => Some []
  | Some (r, c) => if r =? n then Some c else None
  end.

(** E 331-340 *)
Definition precf (n : nat) (p : option oper) : option (option (list K -> fresult)) :=
  match p with
  | None => Some None
  | Some (OFun f) => Some (Some f)
  | Some (OMat m) =>
      match r_class m with
      | Plain => if (r_rows m =? n) && (r_cols m =? n) then Some (Some (solve m)) else None
      | _ => None
      end
  end.

(** E 203-369, P 624-653 *)
Definition eigs_setup (a : eigs_args) : option eigs_call :=
  n <- order_of a ;
  if match e_B a with
     | Some (OMat m) => negb ((r_rows m =? n) && (r_cols m =? n))
     | _ => false
     end then None
  else if (e_NEig a >? Z.of_nat n)%Z || (e_NEig a <? 0)%Z then None
  else
    t <- r_target (e_which a) (e_shifts a) ;
    x0 <- block_of n (e_x0 a) ;
    ortho <- block_of n (e_ortho a) ;
    p <- precf n (e_prec a) ;
    let neig := Z.to_nat (e_NEig a) in
    Some {| c_kind := run_kind (e_isreal a) (e_A a); c_n := n;
            c_A := hand (e_isreal a) (e_A a); c_B := option_map (hand (e_isreal a)) (e_B a);
            c_target := fst t; c_shifts := snd t;
            c_numEvals := neig; c_numOrthoConst := length ortho; c_initSize := length x0;
            c_evecs := ortho ++ x0 ++
                       repeat (repeat kzero n) (max (length x0) neig - length x0);
            c_prec := p; c_convTest := e_convTest a |}.

(** What the solver leaves. *)
Record eigs_left := {
  x_ret : Z; x_initSize : nat; x_evals : list V; x_evecs : list (list K); x_rnorms : list V }.

Inductive eigs_answer :=
| ROther                        (* an error that does not carry the code *)
| RError (ret : Z)
| RReturned (values : list V) (vectors : list (list K)) (rnorms : list V).

(** P 749-757 and E 385-391.  Range(first,last) of Rcpp throws when first > last. *)
Definition eigs_finish (noc : nat) (l : eigs_left) : eigs_answer :=
  if x_initSize l =? 0 then ROther
  else if (x_ret l =? 0)%Z
       then RReturned (x_evals l) (slice noc (noc + x_initSize l) (x_evecs l)) (x_rnorms l)
       else RError (x_ret l).

Definition eigs_sym (run : eigs_call -> eigs_left) (a : eigs_args) : eigs_answer :=
  match eigs_setup a with
  | None => ROther
  | Some c => eigs_finish (c_numOrthoConst c) (run c)
  end.

(** P 593-610: the eigenvalue, the vector and the norm given to the user's test.  The vector
    is built by Vector(size, value), which fills it with the first element. *)
Definition conv_test_seen (n : nat) (eval : V) (evec : list K) (rnorm : V)
    : option (list V * list K * list V) :=
  v <- get evec 0 ; Some ([eval], repeat v n, [rnorm]).
End Eigs.

(** ** svds *)
Section Svds.
Context {V : Type}.
Variable solve : rmatrix -> list K -> fresult.

Inductive flag := N | C.                      (* "n" and "c" *)
Inductive sv_oper := SFun (f : list K -> flag -> fresult) | SMat (m : rmatrix).

Inductive swhich := SL | SS | SNumeric (l : list V) | SBad.

Record svds_args := {
  s_A : sv_oper; s_m : nat; s_n : nat;
  s_NSvals : Z; s_which : swhich; s_isreal : option bool;
  s_u0 : option (list (list K)); s_v0 : option (list (list K));
  s_orthou : option (list (list K)); s_orthov : option (list (list K)) }.

(** S 227-228, Af for a matrix: A %*% x, or crossprod(A, x), the transpose without conjugation *)
Definition Af (m : rmatrix) (x : list K) (t : flag) : option (list K) :=
  let e := entry (r_kind m) (r_rows m) (r_mem m) in
  match t with
  | N => gemv (r_rows m) (r_cols m) e x
  | C => gemv (r_cols m) (r_rows m) (fun i j => e j i) x
  end.
(** S 229-230, Afc: Conj(t(crossprod(Conj(x), A))) *)
Definition Afc (m : rmatrix) (x : list K) (t : flag) : option (list K) :=
  let e := entry (r_kind m) (r_rows m) (r_mem m) in
  match t with
  | N => gemv (r_rows m) (r_cols m) e x
  | C => option_map (map cj) (gemv (r_cols m) (r_rows m) (fun i j => e j i) (map cj x))
  end.

(** S 205-243: what is handed to C. *)
Inductive sv_handed :=
| SRaw (m : rmatrix) | SCall (f : list K -> flag -> fresult)
| SAf (m : rmatrix) | SAfc (m : rmatrix) | SDiag (m : rmatrix).
Definition sv_hand (isreal : option bool) (o : sv_oper) : sv_handed :=
  match o with
  | SFun f => SCall f
  | SMat m =>
      let agrees := match isreal with None => true | Some b => same_kind (kind_of b) (r_kind m) end in
      let wrapped := match r_kind m with Real => SAf m | Cplx => SAfc m end in
      match r_class m with
      | Plain | GeMatrix | CSparse => if agrees then SRaw m else wrapped
      | Diagonal => SDiag m
      | OtherClass => wrapped
      end
  end.
Definition sv_run_kind (isreal : option bool) (o : sv_oper) : kind :=
  match isreal with
  | Some b => kind_of b
  | None => match o with SFun _ => Cplx | SMat m => r_kind m end
  end.

(** P 985-1003, 1040-1138: the product of one column.  The flag is "n" for *transpose == 0.
    xgemm with "C" is the conjugate transpose. *)
Definition sv_product (k : kind) (m n : nat) (h : sv_handed) (transpose : bool) (x : list K) : outcome :=
  let t := if transpose then C else N in
  let rows := if transpose then n else m in
  let wrapped (r : option (list K)) (A : rmatrix) :=
    match r with
    | None => Raised
    | Some y => copy_result k rows
        {| f_kind := match k, r_kind A with Real, Real => Real | _, _ => Cplx end; f_values := y |}
    end in
  match h with
  | SCall f => copy_result k rows (f x t)
  | SAf A => wrapped (Af A x t) A
  | SAfc A => wrapped (Afc A x t) A
  | SDiag A => wrapped (Af A x N) A
  | SRaw A =>
      if same_kind k (r_kind A) then
        let e := entry k (r_rows A) (r_mem A) in
        defined (match t with
                 | N => gemv (r_rows A) (r_cols A) e x
                 | C => gemv (r_cols A) (r_rows A) (fun i j => option_map cj (e j i)) x
                 end)
      else Raised
  end.

(** Af applied to each column in check_uv; for a function A, A itself (S 204). *)
Definition apply_block (o : sv_oper) (x : list (list K)) (t : flag) : option (list (list K)) :=
  collect (map (fun c => match o with
                         | SFun f => Some (f_values (f c t))
                         | SMat m => Af m c (match r_class m with Diagonal => N | _ => t end)
                         end) x).

Definition all_rows (r : nat) (x : list (list K)) : bool := forallb (fun c => length c =? r) x.

(** S 273-293, check_uv *)
Definition check_uv (o : sv_oper) (m n : nat) (u v : option (list (list K)))
    : option (list (list K) * list (list K)) :=
  match u, v with
  | None, None => Some ([], [])
  | Some u, Some v => if all_rows m u && all_rows n v then Some (u, v) else None
  | Some u, None => if all_rows m u then v <- apply_block o u C ;
                                         if all_rows n v then Some (u, v) else None else None
  | None, Some v => if all_rows n v then u <- apply_block o v N ; Some (u, v) else None
  end.

(** S 251-264 *)
Definition sv_target (w : swhich) : option (Z * list V) :=
  match w with
  | SL => Some (primme_svds_largest, [])
  | SS => Some (primme_svds_smallest, [])
  | SNumeric l => Some (primme_svds_closest_abs, l)
  | SBad => None
  end.

(** P 1162-1202: checks, allocation and initial contents of the array of vectors; [fresh] is
    what the allocated memory holds. *)
Definition sv_arrays (a : svds_args) (fresh : list K) : option (nat * nat * list K) :=
  let m := s_m a in let n := s_n a in
  o <- check_uv (s_A a) m n (s_orthou a) (s_orthov a) ;
  i <- check_uv (s_A a) m n (s_u0 a) (s_v0 a) ;
  let '(ou, ov) := o in let '(iu, iv) := i in
  if negb ((all_rows m ou) && (all_rows n ov) && (all_rows m iu) && (all_rows n iv)) then None
  else if negb ((length ou =? length ov) && (length iu =? length iv)) then None
  else
    let mem := firstn ((m + n) * (length ou + max (length iu) (Z.to_nat (s_NSvals a)))) fresh in
    let ncols := length ou + length iu in
    mem <- write_at mem 0 (concat ou) ;
    mem <- write_at mem (m * length ou) (concat iu) ;
    mem <- write_at mem (m * ncols) (concat ov) ;
    mem <- write_at mem (m * ncols + n * length ov) (concat iv) ;
    Some (length ou, length iu, mem).

Record sv_left := {
  w_ret : Z; w_initSize : nat; w_svals : list V; w_svecs : list K; w_rnorms : list V }.
Inductive sv_answer :=
| SROther
| SRError (ret : Z)
| SRReturned (d : list V) (u v : list (list K)) (rnorms : list V).

(** P 1244-1254 and S 385-391 *)
Definition sv_finish (m n noc : nat) (l : sv_left) : sv_answer :=
  let c := w_initSize l in
  if (w_ret l =? 0)%Z
  then SRReturned (w_svals l)
         (columns_of m c (skipn (m * noc) (w_svecs l)))
         (columns_of n c (skipn (m * (noc + c) + n * noc) (w_svecs l)))
         (w_rnorms l)
  else SRError (w_ret l).

Definition svds (run : nat -> nat -> Z * list V -> list K -> sv_left) (a : svds_args) (fresh : list K) : sv_answer :=
  if (s_NSvals a >? Z.of_nat (min (s_m a) (s_n a)))%Z || (s_NSvals a <? 0)%Z then SROther
  else match sv_target (s_which a), sv_arrays a fresh with
       | Some t, Some (noc, init, mem) => sv_finish (s_m a) (s_n a) noc (run noc init t mem)
       | _, _ => SROther
       end.

(** S 320-326 and P 1006-1029: the preconditioner given as a list; [None] for a mode not given. *)
Inductive pmode := AHA | AAH | Aug.
Definition sv_prec (prec : pmode -> option oper) (mode : pmode) (x : list K) : fresult :=
  match prec mode with
  | Some (OFun f) => f x
  | Some (OMat m) => solve m x
  | None => {| f_kind := Real; f_values := x |}
  end.
(** P 1008-1024: the mode asked by the solver *)
Definition pmode_of (op : Z) : option pmode :=
  if (op =? primme_svds_op_AtA)%Z then Some AHA
  else if (op =? primme_svds_op_AAt)%Z then Some AAH
  else if (op =? primme_svds_op_augmented)%Z then Some Aug
  else None.
End Svds.
End R.
