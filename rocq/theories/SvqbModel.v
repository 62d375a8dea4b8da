(** The block orthonormalization and its matrices (src/eigs/ortho.c,
    Bortho_block_gen_Sprimme, Num_ortho_kernel, decomposition, rank_estimation,
    update_cholesky_Sprimme, ortho_single_iteration_Sprimme).

    Arithmetic is exact.  The routines of BLAS and LAPACK on small matrices are
    parameters; so are the square roots, which are taken of numbers bounded below
    by a positive number.  Rows of vectors are all in one process; the cutting of
    the rows in pieces (Num_ortho_kernel) and the reduction change sums only. *)
From Coq Require Import List Arith Lia Bool.
From Verif Require Import Base ProjModel MatAlg.
Import ListNotations.

Set Implicit Arguments.

(** xTRSM("L","U","C"), ("L","U","N") and ("R","U","N"), xPOTRF("U") and xHEEV("V","U"),
    eigenvalues ascending; [None] is info <> 0. *)
Record lapack (K : Type) := Lapack {
  trsmC : nat -> nat -> (nat -> nat -> K) -> (nat -> nat -> K) -> nat -> nat -> K;
  trsmN : nat -> nat -> (nat -> nat -> K) -> (nat -> nat -> K) -> nat -> nat -> K;
  trsmR : nat -> nat -> (nat -> nat -> K) -> (nat -> nat -> K) -> nat -> nat -> K;
  potrf : nat -> (nat -> nat -> K) -> option (nat -> nat -> K);
  heev : nat -> (nat -> nat -> K) -> option ((nat -> nat -> K) * (nat -> K)) }.

Section Svqb.
Context {K : Type} (o : scal K) (la : lapack K).
(** sqrt(max(ABS(c), eps_orth)) and sqrt(max(d, eps_orth * m)) (ortho.c 696, 708). *)
Context (rootN : K -> K) (rootD : nat -> K -> K).
(** !(REAL_PART(a) < MACHINE_MAX), MACHINE_MAX (ortho.c 671-674), ABS(a - 1) < .8 (658). *)
Context (big : K -> bool) (huge : K) (near1 : K -> bool).
(** The two tests of rank_estimation (ortho.c 1170-1175): of the diagonal entry, and
    of an entry of the column with the two diagonal entries. *)
Context (posd : K -> bool) (close : K -> K -> K -> bool).
Local Notation mx := (nat -> nat -> K).

(** The dimension of the vectors, the product with B (none: the vector itself), the
    locked vectors, and the range of columns of V that are orthonormalized, b2
    excluded (ortho.c 510). *)
Context (n : nat) (B : option mx) (nl : nat) (locked : mx) (b1 b2 : nat).
Let m := b2 - b1.
Let p := nl + b1.

Definition Bmul (X : mx) : mx := match B with Some b => mul o n b X | None => X end.
(** [locked V]. *)
Definition both (V : mx) : mx := fun i j => if j <? nl then locked i j else V i (j - nl).
(** V(b1:b2-1). *)
Definition block (V : mx) : mx := fun i j => V i (b1 + j).
Definition setblock (V X : mx) : mx := fun i j => if (b1 <=? j) && (j <? b2) then X i (j - b1) else V i j.

(** V, the array VLtBVL, RLocked, the rows 0..b1-1 of R and its diagonal block r,
    VLtBVLdA, D, Y, Yortho; and C before its scaling and the eigenvalues before the
    square root, which the code does not keep. *)
Record bst := Bst { bV : mx; bG : mx; bRL : mx; bRT : mx; br : mx;
  bS : mx; bD : nat -> K; bY : mx; bYo : bool; bC : mx; bE : nat -> K }.

(** Num_ortho_kernel, ortho.c 975-1039: V(b1:b2) = (V(b1:b2) - [locked V] S) Y / D,
    or by solving with the Cholesky factor. *)
Definition kernel_update (st : bst) : mx :=
  let X := block (bV st) in
  let X1 := msub o X (mul o p (both (bV st)) (bS st)) in
  let X2 :=
    if bYo st then mul o m X1 (fun i j => kmul o (bY st i j) (kdiv o (k1 o) (bD st j)))
    else if m =? 1 then mul o m X1 (fun i j => kmul o (kdiv o (k1 o) (bY st i j)) (kdiv o (k1 o) (bD st j)))
    else trsmR la n m (bY st) X1 in
  setblock (bV st) X2.

(** Num_ortho_kernel, ortho.c 1043-1066: A = [locked V(0:b2-1)]' B V(b1:b2-1), stored
    in the columns nl+b1.. of VLtBVL (ortho.c 582). *)
Definition gram_update (V G : mx) : mx :=
  let A := mul o n (adj o (both V)) (Bmul (block V)) in
  fun i j => if (i <? nl + b2) && (p <=? j) && (j <? nl + b2) then A i (j - p) else G i j.

(** rank_estimation, ortho.c 1165-1181. *)
Fixpoint all_close (V : mx) (i j : nat) : bool :=
  match j with 0 => true | S k => all_close V i k && close (V k i) (V i i) (V k k) end.
Fixpoint rank_from (V : mx) (fuel i : nat) : nat :=
  match fuel with
  | 0 => i
  | S f => if posd (V i i) && all_close V i i then rank_from V f (S i) else i
  end.
Definition rank_estimation (V : mx) (n0 n1 : nat) : nat := rank_from V (n1 - n0) n0.

(** ortho.c 655-662: the norms are close to one. *)
Fixpoint norms_near1 (G : mx) (k : nat) : bool :=
  match k with 0 => true | S j => norms_near1 G j && near1 (G (nl + (b1 + j)) (nl + (b1 + j))) end.

(** ortho.c 670-675: entry i of column i of A is looked at, column nl+i of VLtBVL is
    cleared down to row nl+i. *)
Fixpoint fix_overflow (G : mx) (k : nat) : mx :=
  match k with
  | 0 => G
  | S i =>
      let G0 := fix_overflow G i in
      if big (G0 i (p + i)) then
        let G1 := fun a b => if (b =? nl + i) && (a <? nl + i) then k0 o else G0 a b in
        fun a b => if (a =? i) && (b =? p + i) then huge else G1 a b
      else G0
  end.

(** decomposition, ortho.c 1097-1137. *)
Definition decomposition (C : mx) : option (mx * (nat -> K) * bool) :=
  match potrf la m C with
  | Some Y => Some (Y, fun _ => k1 o, false)
  | None =>
      Ye <- heev la m (fun i j => kopp o (C i j)) ;
      Some (fst Ye, fun i => kopp o (snd Ye i), true)
  end.

(** ortho.c 670-772: from the inner products, the next transformation, and its
    accumulation in R. *)
Definition factor (F : mx) (st : bst) : option bst :=
  let G := fix_overflow (bG st) m in
  let A := fun i j => G i (p + j) in
  let S1 := trsmC la p m F A in
  let C := fun i j => ksub o (A (p + i) j) (mul o p (adj o S1) S1 i j) in
  let S := trsmN la p m F S1 in
  let N := fun i => rootN (C i i) in
  let C1 := fun i j => if i <=? j then kdiv o (C i j) (kmul o (N j) (N i)) else C i j in
  YE <- decomposition C1 ;
  let '(Y, E, Yo) := YE in
  let D := fun i => rootD m (E i) in
  let RL := fun i j => if i <? nl then kadd o (bRL st i j) (mul o m S (br st) i j) else bRL st i j in
  let RT := fun i j => if i <? b1 then kadd o (bRT st i j) (mul o m (fun a b => S (nl + a) b) (br st) i j) else bRT st i j in
  let r1 := fun i j => kmul o (br st i j) (N i) in
  let C2 := if Yo then mul o m (adj o Y) r1
            else mul o m (fun i j => if i <=? j then Y i j else k0 o) r1 in
  let r := fun i j => kmul o (D i) (C2 i j) in
  let Y1 := if Yo then fun i j => kdiv o (Y i j) (N i) else fun i j => kmul o (Y i j) (N j) in
  Some (Bst (bV st) G RL RT r S D Y1 Yo C E).

(** ortho.c 610-773: the loop; the flag tells whether the test ended it, [None]
    is an error of LAPACK. *)
Fixpoint svqb_loop (F : mx) (fuel its plus1 : nat) (st : bst) : option (bst * bool) :=
  match fuel with
  | 0 => Some (st, false)
  | S f =>
      let V := if its =? 0 then bV st else kernel_update st in
      let st1 := Bst V (gram_update V (bG st)) (bRL st) (bRT st) (br st) (bS st) (bD st) (bY st) (bYo st)
                     (bC st) (bE st) in
      let full := rank_estimation (bG st1) (nl + b1) (nl + b2) =? nl + b2 in
      if full && (plus1 <=? its) && norms_near1 (bG st1) m then Some (st1, true)
      else
        let plus1' := if full && negb (plus1 <=? its) then Nat.min (its + 1) plus1 else plus1 in
        st2 <- factor F st1 ;
        svqb_loop F f (S its) plus1' st2
  end.

(** ortho.c 552-576: R starts as the identity in the new columns. *)
Definition start (V G : mx) : bst :=
  Bst V G (fun _ _ => k0 o) (fun _ _ => k0 o) (one o) (fun _ _ => k0 o) (fun _ => k1 o) (one o) true
      (fun _ _ => k0 o) (fun _ => k1 o).

(** update_cholesky_Sprimme, ortho.c 1200-1220; [None]: the factorization fails. *)
Definition update_cholesky (VtV F : mx) (n0 n1 : nat) : option mx :=
  let T := trsmC la n0 (n1 - n0) F (fun i j => VtV i (n0 + j)) in
  let A := fun i j => ksub o (VtV (n0 + i) (n0 + j)) (mul o n0 (adj o T) T i j) in
  P <- potrf la (n1 - n0) A ;
  Some (fun i j => if (n0 <=? j) && (j <? n1) && (i <? n1)
                   then if i <? n0 then T i (j - n0) else P (i - n0) (j - n0)
                   else F i j).

(** Bortho_block_gen_Sprimme, ortho.c 497-803, with VLtBVL: the arrays at the end of the
    loop, the Cholesky factor of VLtBVL, b2_out, and whether the test ended the loop. *)
Definition bortho_block (V G F : mx) : option (bst * mx * nat * bool) :=
  st_t <- svqb_loop F 5 0 5 (start V G) ;
  let '(st, tested) := st_t in
  let b2o := rank_estimation (bG st) (nl + b1) (nl + b2) - nl in
  F1 <- update_cholesky (bG st) F (nl + b1) (nl + b2o) ;
  Some (st, F1, b2o, tested).

(** ortho_single_iteration_Sprimme, ortho.c 826-934, all the columns: Q'X, its
    solution with Q'BQ if that is given -- computed and not used (906) --, and
    X - BQ y. *)
Definition ortho_single (udusolve : nat -> mx -> mx -> mx) (nQ : nat) (Q BQ : mx) (QtBQ : option mx) (X : mx) : mx :=
  let y := mul o n (adj o Q) X in
  let z := match QtBQ with Some g => udusolve nQ g y | None => y end in
  (fun _ => msub o X (mul o nQ BQ y)) z.

End Svqb.
