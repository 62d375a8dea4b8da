(** What is asked of a block orthonormalization, in terms of inner products and sums. *)
From Coq Require Import List Arith Bool Lia.
From Verif Require Import Base ProjModel SpecProj MatAlg SvqbModel.

Set Implicit Arguments.

Section SpecSvqb.
Context {K : Type} (o : scal K).
Local Notation mx := (nat -> nat -> K).

(** The upper triangle; the Hermitian matrix of which it is the upper triangle. *)
Definition up (F : mx) : mx := fun i j => if i <=? j then F i j else k0 o.
Definition herm (C : mx) : mx := fun i j => if i <=? j then C i j else kconj o (C j i).
Definition nonzero_diagonal (k : nat) (F : mx) : Prop := forall i, i < k -> F i i <> k0 o.

(** What LAPACK promises. *)
Record lapack_ok (la : lapack K) : Prop := LapackOk {
  ok_trsmC : forall p m F A, nonzero_diagonal p F -> meq p m (mul o p (adj o (up F)) (trsmC la p m F A)) A;
  ok_trsmN : forall p m F A, nonzero_diagonal p F -> meq p m (mul o p (up F) (trsmN la p m F A)) A;
  ok_trsmR : forall n m U X, nonzero_diagonal m U -> meq n m (mul o m (trsmR la n m U X) (up U)) X;
  ok_potrf : forall m C Y, potrf la m C = Some Y ->
    nonzero_diagonal m Y /\ meq m m (mul o m (adj o (up Y)) (up Y)) (herm C);
  ok_heev : forall m C Y e, heev la m C = Some (Y, e) ->
    meq m m (mul o m (adj o Y) Y) (one o) /\ meq m m (mul o m Y (adj o Y)) (one o) /\
    meq m m (mul o m (mul o m Y (diag o e)) (adj o Y)) (herm C) }.

(** Square roots of positive numbers: not zero and real. *)
Record roots_ok (m : nat) (rootN : K -> K) (rootD : nat -> K -> K) : Prop := RootsOk {
  ok_N : forall c, rootN c <> k0 o; ok_Nr : forall c, kconj o (rootN c) = rootN c;
  ok_D : forall c, rootD m c <> k0 o; ok_Dr : forall c, kconj o (rootD m c) = rootD m c;
  ok_D1 : rootD m (k1 o) = k1 o }.

(** The inner product x' B y of columns i and j, with n rows. *)
Definition inner (n : nat) (B : option mx) (X Y : mx) (i j : nat) : K :=
  sum o n (fun l => kmul o (kconj o (X l i))
    match B with Some b => sum o n (fun h => kmul o (b l h) (Y h j)) | None => Y l j end).

(** The columns of [locked V] in order. *)
Definition joined (nl : nat) (locked V : mx) : mx := fun i j => if j <? nl then locked i j else V i (j - nl).

(** The first k columns of G hold, down to the diagonal, the inner products of
    [locked V]; F is their Cholesky factor. *)
Definition tracks (n : nat) (B : option mx) (nl : nat) (locked V G F : mx) (k : nat) : Prop :=
  (forall i j, i <= j -> j < k -> G i j = inner n B (joined nl locked V) (joined nl locked V) i j) /\
  nonzero_diagonal k F /\
  forall i j, i < k -> j < k ->
    sum o k (fun l => kmul o (kconj o (up F l i)) (up F l j)) = inner n B (joined nl locked V) (joined nl locked V) i j.

Definition orthonormal (n : nat) (B : option mx) (X : mx) (k : nat) : Prop :=
  forall i j, i < k -> j < k -> inner n B X X i j = if i =? j then k1 o else k0 o.
End SpecSvqb.
