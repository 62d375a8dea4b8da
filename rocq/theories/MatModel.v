(** The MATLAB function primme_eigs (Matlab/primme_eigs.m, here E) and the parts of
    Matlab/primme_mex.cpp (here M) that it uses, on the CPU.  Products and left divisions of
    MATLAB are taken to be exact; graphics processors, reports, profiles and statistics are not
    modelled. *)
From Coq Require Import String List Arith ZArith Bool Lia.
From Verif Require Import Base SvdsModel.
Import ListNotations.

(** The outcome of a step: a value, an error raised in MATLAB, or undefined behaviour. *)
Inductive res (X : Type) := Ok (x : X) | Err | Bad.
Arguments Ok {X}. Arguments Err {X}. Arguments Bad {X}.
Definition rbind {X Y} (r : res X) (f : X -> res Y) : res Y :=
  match r with Ok x => f x | Err => Err | Bad => Bad end.

(** The classes of arrays: double, single, the integer classes, logical, and the others. *)
Inductive cls := CDouble | CSingle | CInteger | CLogical | CChar.

Section Mat.
Context {K : Type}.
Variables (kzero : K) (kadd kmul : K -> K -> K).

(** An array of MATLAB with two dimensions, stored by columns; of a sparse one only the stored
    entries are in [a_data]. *)
Record arr := Arr { a_rows : nat; a_cols : nat; a_cls : cls; a_cplx : bool; a_sparse : bool; a_data : list K }.
Definition full (m n : nat) (c : bool) (d : list K) : arr := Arr m n CDouble c false d.

(** M 217-272 with the kernels of 185-208: [cplx] is whether the destination is complex; the
    result are the [n] columns of [m] entries that are written to it.  Sparse arrays are not
    told apart: their entries are read as those of a full one. *)
Definition copy_mxArray (cplx : bool) (m n : nat) (x : arr) : res (list (list K)) :=
  if (((a_rows x =? 1) && (a_cols x =? m) && (n =? 1)) || ((a_rows x =? m) && (a_cols x =? n)))%bool then
    match a_cls x with
    | CChar => Err
    | _ => if a_cplx x && negb cplx then Err
           else match read_cols (a_data x) 0 m m n with Some cs => Ok cs | None => Bad end
    end
  else Err.

(** M 326-395: [n] columns of [m] entries of [y], [ldy] apart. *)
Definition create_mxArray (cplx : bool) (y : list K) (m n ldy : nat) : res arr :=
  match read_cols y 0 m ldy n with Some cs => Ok (full m n cplx (concat cs)) | None => Bad end.

(** M 1061-1102: the product of a block.  [f] is the function of the user, [None] when it raises. *)
Definition matvec (cplx : bool) (f : arr -> option arr) (n bsz : nat) (x : list K) (ldx : nat)
  (y : list K) (ldy : nat) : res (list K) :=
  if bsz =? 0 then Ok y
  else
    rbind (create_mxArray cplx x n bsz ldx) (fun ax =>
    match f ax with
    | None => Err
    | Some r =>
      rbind (copy_mxArray cplx n bsz r) (fun cs =>
      match write_cols y 0 ldy cs with Some y' => Ok y' | None => Bad end)
    end).

(** A numeric argument that stands for a matrix: its dimensions and entries. *)
Record matrix := Matrix { m_rows : nat; m_cols : nat; m_cplx : bool; m_at : nat -> nat -> K }.

(** The product of a matrix with the columns of [x] (MATLAB). *)
Definition col_times (a : matrix) (x : list K) : list K :=
  map (fun i => fold_left (fun s j => kadd s (kmul (m_at a i j) (nth j x kzero))) (seq 0 (m_cols a)) kzero)
      (seq 0 (m_rows a)).
Definition times (a : matrix) (x : arr) : option arr :=
  if m_cols a =? a_rows x then
    match read_cols (a_data x) 0 (a_rows x) (a_rows x) (a_cols x) with
    | Some cs => Some (full (m_rows a) (a_cols x) (m_cplx a || a_cplx x) (concat (map (col_times a) cs)))
    | None => None
    end
  else None.

(** An argument of primme_eigs. *)
Inductive option_value := VNum (a : arr) | VStr (s : string) | VFun (f : arr -> option arr).
Inductive arg :=
  | AMat (a : matrix)               (** numeric, not a scalar *)
  | AScalar (z : K) (count : nat)   (** a numeric scalar; [count] is its value rounded *)
  | AFun (f : arr -> option arr)
  | AStr (s : string)
  | AStruct (o : list (string * option_value))
  | AEmpty.                         (** [] *)

(** The left division by a matrix (MATLAB): it raises unless the rows agree. *)
Variable solve : matrix -> arr -> option arr.
Definition backslash (p : matrix) (x : arr) : option arr :=
  if m_rows p =? a_rows x then solve p x else None.
Definition empty_matrix : matrix := Matrix 0 0 false (fun _ _ => kzero).

(** E 339-344 and 351-356: the function that applies a preconditioner.  A scalar divides the
    entries; not modelled further. *)
Variable divide : K -> arr -> option arr.
Definition prec_of (p : arg) : option (arr -> option arr) :=
  match p with
  | AMat a => Some (backslash a)
  | AEmpty => Some (backslash empty_matrix)
  | AScalar z _ => Some (divide z)
  | AFun f => Some f
  | AStr _ | AStruct _ => None
  end.

(** What E 207-362 gathers. *)
Record problem := Problem {
  p_A : arr -> option arr;
  p_B : option (arr -> option arr);
  p_cplx : bool;
  p_n : nat;
  p_k : nat;
  p_target : string;
  p_shifts : option arr;
  p_opts : list (string * option_value);
  p_method : string;
  p_prec : option (arr -> option arr)
}.

Definition is_fun (a : arg) : bool := match a with AFun _ => true | _ => false end.
(** E 235: the second argument is a mass matrix. *)
Definition is_second (a : arg) : bool := match a with AScalar _ _ => false | _ => true end.

Open Scope string_scope.
Open Scope nat_scope.
(** E 286-306. *)
Definition target_names : list (string * string) :=
  [("LA", "primme_largest"); ("LM", "primme_largest_abs"); ("SA", "primme_smallest");
   ("CGT", "primme_closest_geq"); ("CLT", "primme_closest_leq"); ("SM", "primme_closest_abs")].
Fixpoint lookup {X} (s : string) (l : list (string * X)) : option X :=
  match l with [] => None | (t, x) :: l => if String.eqb t s then Some x else lookup s l end.
Definition zero_shift : arr := full 1 1 false [kzero].
Definition numeric (a : arg) : option arr :=
  match a with
  | AScalar z _ => Some (full 1 1 false [z])
  | AMat m => Some (full (m_rows m) (m_cols m) (m_cplx m)
                      (flat_map (fun j => map (fun i => m_at m i j) (seq 0 (m_rows m))) (seq 0 (m_cols m))))
  | AEmpty => Some (full 0 0 false [])
  | _ => None
  end.
Definition target_of (a : arg) : res (string * option arr) :=
  match numeric a with
  | Some v => Ok ("primme_closest_abs", Some v)
  | None =>
    match a with
    | AStr s =>
      match lookup s target_names with
      | None => Err
      | Some t => Ok (t, if String.eqb s "SM" || String.eqb s "LM" then Some zero_shift else None)
      end
    | _ => Err
    end
  end.

(** E 285-348 from the number of values on.  [rest] are the arguments left. *)
Definition rest_of (n : nat) (fa : arr -> option arr) (fb : option (arr -> option arr)) (cplx : bool)
  (rest : list arg) : res problem :=
  rbind (match rest with
         | [] => Ok (Nat.min 6 n)
         | AScalar _ k :: _ => Ok k
         | _ => Err
         end) (fun k =>
  rbind (match rest with
         | _ :: t :: _ => target_of t
         | _ => Ok ("primme_largest_abs", Some zero_shift)
         end) (fun ts =>
  rbind (match rest with
         | _ :: _ :: AEmpty :: _ => Ok []
         | _ :: _ :: AStruct o :: _ => Ok o
         | _ :: _ :: _ :: _ => Err
         | _ => Ok []
         end) (fun o =>
  rbind (match rest with
         | _ :: _ :: _ :: AEmpty :: _ => Ok "PRIMME_DEFAULT_METHOD"
         | _ :: _ :: _ :: AStr s :: _ => Ok ("PRIMME_" ++ s)
         | _ :: _ :: _ :: _ :: _ => Err
         | _ => Ok "PRIMME_DEFAULT_METHOD"
         end) (fun me =>
  rbind (match rest with
         | _ :: _ :: _ :: _ :: p :: _ => match prec_of p with Some f => Ok (Some f) | None => Err end
         | _ => Ok None
         end) (fun p1 =>
  rbind (match rest with
         | _ :: _ :: _ :: _ :: _ :: p :: _ =>
           match p1, prec_of p with
           | Some f, Some g => Ok (Some (fun x => y <- f x ; g y))
           | _, _ => Err
           end
         | _ => Ok p1
         end) (fun p =>
  let shifts := match lookup "targetShifts" o with      (* E 319-322 *)
                | Some (VNum a) => Some a
                | Some _ => None
                | None => snd ts
                end in
  Ok (Problem fa fb cplx n k (fst ts) shifts o me p))))))).

(** E 207-283.  The check that A is Hermitian is not modelled.  [None] as size: not known yet. *)
Definition parse (args : list arg) : res problem :=
  match args with
  | [] => Err
  | a :: args1 =>
    rbind (match a with
           | AMat m => Ok (times m, m_cplx m, Some (m_cols m), false)
           | AFun f => Ok (f, true, None, true)
           | _ => Err                     (* scalars, strings and structs as A are not modelled *)
           end) (fun '(fa, ac, an, afun) =>
    rbind (match args1 with
           | b :: args2 =>
             if is_second b then
               match b with
               | AMat m =>
                   if negb (m_rows m =? m_cols m) then Err
                   else if match an with Some n => negb (m_rows m =? n) | None => false end then Err
                   else Ok (Some (times m), orb ac (m_cplx m), afun, args2)
               | AEmpty => match an with Some n => if n =? 0 then Ok (None, ac, afun, args2) else Err
                                       | None => Ok (Some (times empty_matrix), ac, afun, args2) end
               | AFun f => Ok (Some f, ac, true, args2)
               | _ => Err                 (* a string or a struct as function is not modelled *)
               end
             else Ok (None, ac, afun, args1)
           | [] => Ok (None, ac, afun, [])
           end) (fun '(fb, cplx, abfun, args3) =>
    if abfun then
      match args3 with
      | AScalar _ n :: args4 => rest_of n fa fb cplx args4
      | _ => Err
      end
    else match an with
         | Some n => rest_of n fa fb cplx args3
         | None => Err
         end))
  end.

(** M 773-783: the shifts; the array has to be a row or a column. *)
Definition set_shifts (a : arr) : res (list K) :=
  let count := (a_rows a * a_cols a)%nat in
  rbind (copy_mxArray false count 1 a) (fun cs => Ok (concat cs)).

End Mat.

(** M 646-663 and 876-879: options of type int.  A number is a whole one, one strictly between
    two whole ones (with the one nearer to zero), or not finite. *)
Inductive number := Whole (z : Z) | Between (z : Z) | NotFinite.
Definition in_int (z : Z) : bool := ((-2147483648 <=? z) && (z <=? 2147483647))%Z.
Definition int_option (c : cls) (v : number) : res Z :=
  match c with
  | CLogical | CChar => Err               (* mxIsNumeric; names of constants are C59 *)
  | _ => match v with
         | Whole z | Between z => if in_int z then Ok z else Bad
         | NotFinite => Bad
         end
  end.

(** M 1105-1131: the answer of a convergence test, and the value given to it; the solver stores
    the value as a double (convTestFun in auxiliary_eigs_normal.c 415), [T] is the class of the run. *)
Definition test_answer (v : number) : res bool :=
  match v with
  | Whole z | Between z => if in_int z then Ok (negb (z =? 0)%Z) else Bad
  | NotFinite => Bad
  end.
Definition test_value {V} (single : bool) (eval : V) : res V := if single then Bad else Ok eval.

(** ** The results *)
Section Results.
Context {E V : Type}.
Variable ge : E -> E -> bool.                 (* the order of sort(...,'descend') *)
Variable nonneg : E -> bool.

(** What the solver leaves: its code, values, norms, the columns after the constraints, and the
    member initSize. *)
Record solved := Solved { s_ret : Z; s_evals : list E; s_norms : list E; s_vecs : list V; s_init : nat }.

(** M 1350: pairs with a norm that is not negative. *)
Fixpoint numRet (norms : list E) : nat :=
  match norms with [] => 0 | r :: t => if nonneg r then S (numRet t) else 0 end.

(** M 1346-1390: values, norms and vectors for four outputs.  [own] is whether the array of
    the vectors is returned as it is (real, no constraints). *)
Definition mex_return (own : bool) (s : solved) : list E * list E * list V :=
  let q := numRet (s_norms s) in
  (firstn q (s_evals s), firstn q (s_norms s), if own then s_vecs s else firstn q (s_vecs s)).

(** sort with its second output: stable. *)
Fixpoint insert (x : E * nat) (l : list (E * nat)) : list (E * nat) :=
  match l with
  | [] => [x]
  | y :: t => if ge (fst x) (fst y) then x :: l else y :: insert x t
  end.
Definition sort_descend (l : list E) : list (E * nat) :=
  fold_right insert [] (combine l (seq 0 (length l))).

(** x(1:q), which raises beyond the end. *)
Definition upto {X} (q : nat) (l : list X) : res (list X) := if q <=? length l then Ok (firstn q l) else Err.
(** x(ind) *)
Fixpoint pick {X} (ind : list nat) (l : list X) : res (list X) :=
  match ind with
  | [] => Ok []
  | i :: ind => match nth_error l i with
                | Some x => rbind (pick ind l) (fun r => Ok (x :: r))
                | None => Err
                end
  end.

(** E 598-630: vectors, values and norms, and whether a warning was given. *)
Definition finish (unconverged sorted : bool) (s : solved) (r : list E * list E * list V)
  : res (list V * list E * list E * bool) :=
  let '(ev, no, ve) := r in
  rbind (if (s_ret s =? -3)%Z && negb unconverged then
           rbind (upto (s_init s) ev) (fun ev => rbind (upto (s_init s) no) (fun no =>
           rbind (upto (s_init s) ve) (fun ve => Ok (ev, no, ve))))
         else Ok (ev, no, ve)) (fun '(ev, no, ve) =>
  if (negb (s_ret s =? -3) && negb (s_ret s =? 0))%Z then Err
  else
    rbind (if sorted then
             let l := sort_descend ev in
             rbind (pick (map snd l) ve) (fun ve => Ok (map fst l, ve))
           else Ok (ev, ve)) (fun '(ev, ve) =>
    Ok (ve, ev, no, (s_ret s =? -3)%Z))).
(** E 614-616 *)
Definition is_sorted (target : string) : bool :=
  negb (String.eqb target "primme_largest") && negb (String.eqb target "primme_smallest")
  && negb (String.eqb target "primme_largest_abs").
Definition eigs_result (own unconverged : bool) (target : string) (s : solved) :=
  finish unconverged (is_sorted target) s (mex_return own s).
End Results.

(** M 1244-1281: the columns allocated, and the vectors given copied into them: constraints first.
    [None]: an error or an access outside. *)
Definition start_vectors {K} (cplx : bool) (n numEvals : nat) (ortho v0 : option (@arr K)) (junk : K)
  : res (list K) :=
  let oc := match ortho with Some a => a_cols a | None => 0 end in
  let ini := match v0 with Some a => a_cols a | None => 0 end in
  let data a := match a with Some x => a_data x | None => [] end in
  let rows_ok a := match a with Some x => a_rows x =? n | None => true end in
  let any_cplx a := match a with Some x => a_cplx x | None => false end in
  if negb (rows_ok ortho && rows_ok v0) then Err                       (* E 510-522 *)
  else
    let evecs := repeat junk (n * (oc + Nat.max numEvals ini)) in
    if 0 <? oc + ini then
      rbind (copy_mxArray cplx n (oc + ini)
               (full n (oc + ini) (any_cplx ortho || any_cplx v0) (data ortho ++ data v0))) (fun cs =>
      match write_cols evecs 0 n cs with Some m => Ok m | None => Bad end)
    else Ok evecs.
