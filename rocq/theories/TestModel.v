(** What the user's convergence test is given: eigs/convergence.c 86-200, the wrapper
    convTestFun_Sprimme (eigs/auxiliary_eigs_normal.c 387-440) and the callers of
    check_convergence.  The vectors are those of VwxrModel.v (array, column, row, by
    process), the numbers those of ConvModel.v.  Simplification: a value shown is the
    number itself, not its conversion to double (lines 414-415). *)
From Coq Require Import List Arith Bool ZArith.
From Verif Require Import Base Values ProjModel MatAlg ConvModel VwxrModel.
Import ListNotations.

(** Element types of a vector in memory (include/primme_eigs.h, primme_op_datatype);
    [op_default] stands for the type the solver works with. *)
Inductive op_type := op_default | op_half | op_float | op_double | op_quad | op_int.
Definition same_type (a b : op_type) : bool :=
  match a, b with
  | op_default, op_default | op_half, op_half | op_float, op_float
  | op_double, op_double | op_quad, op_quad | op_int, op_int => true
  | _, _ => false
  end.

(** linalg/auxiliary.c 79-142, for do_alloc = 1, do_copy = 1 and x of the working type:
    either x itself, or a new array of the type asked for with the values converted. *)
Inductive array := Same | Converted (t : op_type).
Definition astype_of (working asked : op_type) : array :=
  if same_type (match asked with op_default => working | _ => asked end) working then Same else Converted asked.

(** What reaches the user's function: nothing, or a pointer to elements of a type. *)
Inductive argument := NoVector | Vector (x : ptr) (t : op_type).
(** auxiliary_eigs_normal.c 408-440.  [evec0] is computed, but [evec] is passed (430). *)
Definition convTestFun (working declared : op_type) (evec : option ptr) (givenEvec : bool) : argument * option array :=
  let evec0 := match evec with
               | Some _ => if givenEvec then Some (astype_of working declared) else None
               | None => None
               end in
  (if givenEvec then match evec with Some x => Vector x working | None => NoVector end else NoVector, evec0).

Section Test.
Context {K : Type} (o : scal K) (ro : rops K).

(** One call of the test: value, vector, residual norm. *)
Record shown := Shown { sh_val : K; sh_vec : option ptr; sh_norm : K }.
Definition shift_ptr (X : ptr) (n : nat) : ptr := (fst X, snd X + n).
(** convergence.c 124-150: the calls of the loop over pairs [i], [cnt] of them; [X] is the
    first vector given to check_convergence, if given ([givenX]). *)
Fixpoint calls (k : conv_in) (X : option ptr) (givenX : bool) (lo : nat) (norms hVals : list K) (cnt i : nat) : list shown :=
  match cnt with
  | 0 => []
  | S c =>
      match get norms (i - lo), get hVals i with
      | Some norm, Some hval =>
          (if outside ro k hval norm || r_le ro norm (k_maxConvTol k) then []
           else [Shown hval (if givenX then option_map (fun x => shift_ptr x (i - lo)) X else None) norm])
          ++ calls k X givenX lo norms hVals c (S i)
      | _, _ => []
      end
  end.

(** restart.c 954-956: vectors to be locked. *)
Definition restart_calls (k : conv_in) (left packed : nat) (norms hVals : list K) : list shown :=
  calls k (Some (0, left)) true left norms hVals packed left.
(** main_iter.c 1538-1543: candidates [bs] to [bs + n) of the block; the norms and values
    are those of these candidates; [xr] is computeXR. *)
Definition candidate_calls (k : conv_in) (xr : bool) (basisSize bs n : nat) (norms vals : list K) : list shown :=
  calls k (Some (0, basisSize + bs)) xr 0 norms vals n 0.
(** main_iter.c 1687-1689: the loop goes from bs to n instead of bs + n. *)
Definition floor_norms (est : K) (bs n : nat) (norm : nat -> K) (j : nat) : K :=
  if bs + j <? n then r_max ro (norm j) est else norm j.
(** main_iter.c 768-772: after orthogonalization of the new vectors, pair [i] of the block. *)
Definition practical_calls (k : conv_in) (basisSize i : nat) (norm hval : K) : list shown :=
  calls k (Some (0, basisSize + i)) true 0 [norm] [hval] 1 0.

(** main_iter.c 1872-1884, verify_norms: residuals into W, their squared norms, summed
    over the processes, square roots. *)
Definition verify_W (hasB : bool) (vals : nat -> K) (basisSize mV : nat) (mem : @memory K) : @memory K :=
  fun a c r => if (a =? 1) && (c <? basisSize) && (r <? mV)
               then kadd o (kmul o (kopp o (vals c)) (mem (if hasB then 2 else 0) c r)) (mem 1 c r)
               else mem a c r.
Definition verify_norms (sq : K -> K) (hasB : bool) (vals : nat -> K) (basisSize np : nat) (mV : nat -> nat)
    (mem : nat -> @memory K) : list K * (nat -> @memory K) :=
  let mem' p := verify_W hasB vals basisSize (mV p) (mem p) in
  (map (fun i => sq (sum o np (fun p => dot o (mV p) (mem' p 1 i) (mem' p 1 i)))) (seq 0 basisSize), mem').
(** main_iter.c 1886-1888. *)
Definition verify_calls (k : conv_in) (basisSize : nat) (norms hVals : list K) : list shown :=
  calls k (Some (0, 0)) true 0 norms hVals basisSize 0.
End Test.
