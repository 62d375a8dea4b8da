(** The documented operators of the correction equation, written from
    doc/source/appendix.rst 987-1085 and the comment of src/eigs/correction.c
    822-858.  Only the scalars of ProjModel are used. *)
From Coq Require Import List Arith Bool Field_theory.
From Verif Require Import ProjModel.
Import ListNotations.

Section Spec.
Context {K : Type} (o : scal K).

(** The scalars form a field and the conjugation is an involution of it. *)
Record laws := Laws {
  l_field : field_theory (k0 o) (k1 o) (kadd o) (kmul o) (ksub o) (kopp o) (kdiv o) (kinv o) (@eq K);
  l_conj_add : forall a b, kconj o (kadd o a b) = kadd o (kconj o a) (kconj o b);
  l_conj_mul : forall a b, kconj o (kmul o a b) = kmul o (kconj o a) (kconj o b);
  l_conj_conj : forall a, kconj o (kconj o a) = a;
  l_conj_0 : kconj o (k0 o) = k0 o;
  l_zero : forall a, kzero o a = true <-> a = k0 o }.

Definition total (n : nat) (f : nat -> K) : K := fold_right (kadd o) (k0 o) (map f (seq 0 n)).
(** x'y for vectors of n entries. *)
Definition inner (n : nat) (x y : nat -> K) : K := total n (fun r => kmul o (kconj o (x r)) (y r)).

(** I - BQ Q', Q of k columns. *)
Definition proj (n k : nat) (Q BQ : nat -> nat -> K) (v : nat -> K) : nat -> K :=
  fun r => ksub o (v r) (total k (fun j => kmul o (BQ j r) (inner n (Q j) v))).
(** I - Bx x'. *)
Definition proj1 (n : nat) (x Bx v : nat -> K) : nat -> K :=
  fun r => ksub o (v r) (kmul o (Bx r) (inner n x v)).

(** [w] is (I - KQ (Q'KQ)^{-1} Q') v. *)
Definition skew (n k : nat) (Q KQ : nat -> nat -> K) (v w : nat -> K) : Prop :=
  exists a, (forall i, i < k -> total k (fun j => kmul o (inner n (Q i) (KQ j)) (a j)) = inner n (Q i) v)
         /\ (forall r, w r = ksub o (v r) (total k (fun j => kmul o (KQ j r) (a j)))).
(** [w] is (I - Kx (x'Kx)^{-1} x') v. *)
Definition skew1 (n : nat) (x Kx v w : nat -> K) : Prop :=
  forall r, w r = ksub o (v r) (kmul o (Kx r) (kdiv o (inner n x v) (inner n x Kx))).

(** P_Q^l P_X^l (A - shift B) v. *)
Definition left_operator (withQ withX : bool) (n k : nat) (A B : (nat -> K) -> nat -> K) (shift : K)
    (Q BQ : nat -> nat -> K) (x Bx v : nat -> K) : nat -> K :=
  let w0 := fun r => ksub o (A v r) (kmul o shift (B v r)) in
  let w1 := if withX then proj1 n x Bx w0 else w0 in
  if withQ then proj n k Q BQ w1 else w1.

(** The correction without inner iterations: the table of appendix.rst
    1003-1014, with eps the entry of Delta. *)
Definition gd_documented (rightX skewX : bool) (n : nat) (Kinv : (nat -> K) -> nat -> K) (eps : K)
    (x Bx r d : nat -> K) : Prop :=
  match rightX, skewX with
  | false, false => d = Kinv r
  | true, false => d = Kinv (fun q => ksub o (r q) (kmul o eps (Bx q)))
  | true, true => skew1 n x (Kinv Bx) (Kinv r) d
  | false, true => False
  end.

(** The vectors the projections are built from: Q'BQ = I, x'Bx = 1 and x is
    B-orthogonal to Q. *)
Definition orthonormal (n k : nat) (Q BQ : nat -> nat -> K) (x Bx : nat -> K) : Prop :=
  (forall i j, i < k -> j < k -> inner n (Q i) (BQ j) = if i =? j then k1 o else k0 o) /\
  inner n x Bx = k1 o /\
  (forall j, j < k -> inner n x (BQ j) = k0 o) /\
  (forall j, j < k -> inner n (Q j) Bx = k0 o).
End Spec.
