(** What the extraction of C50 is compared with, and what is assumed of the
    numerical kernels.  Vectors have N entries, the basis V has n columns, A and B
    are N by N; [mul k X Y] is the product with common dimension k and [meq m n]
    equality of the first m rows and n columns. *)
From Coq Require Import List Arith Bool.
From Verif Require Import Base ProjModel SpecProj MatAlg ExtractModel.
Import ListNotations.

Section Spec.
Context {K : Type} (o : scal K).
Notation mx := (@mx K).

(** The identity where the program passes no matrix. *)
Definition opt (G : option mx) : mx := match G with None => one o | Some G => G end.

(** X' G Y *)
Definition form (n : nat) (X G Y : mx) : mx := mul o n (adj o X) (mul o n G Y).
(** The columns of X are orthonormal in the inner product of G. *)
Definition orthonormal_in (N n : nat) (G X : mx) : Prop := meq n n (form N X G X) (one o).
(** G is the Gram matrix X'X. *)
Definition gram (N n : nat) (X G : mx) : Prop := meq n n (mul o N (adj o X) X) G.

(** The array H holds in its upper triangle the projection V'AV. *)
Definition holds_upper (n : nat) (H P : mx) : Prop := forall i j, j < n -> i <= j -> H i j = P i j.

(** (A - tau I) V *)
Definition shifted (N : nat) (A V : mx) (tau : K) : mx := msub o (mul o N A V) (scale o tau V).

Definition permutes (n : nat) (p : nat -> nat) : Prop :=
  (forall i, i < n -> p i < n) /\ (forall i j, i < n -> j < n -> p i = p j -> i = j).

(** ** The kernels *)

(** The generalized eigenproblem: A X = B X diag w, X' B X = I. *)
Definition eigen_of (n : nat) (A : mx) (B : mx) (w : nat -> K) (X : mx) : Prop :=
  meq n n (mul o n A X) (mul o n (mul o n B X) (diag o w)) /\ orthonormal_in n n B X.

Definition hegv_right (L : kernels K) (n : nat) : Prop :=
  forall A B w X, hermitian o n A -> hegv L n A B = Some (w, X) -> eigen_of n A (opt B) w X.

(** M = U diag(s) Vt with U and Vt unitary and s real. *)
Definition gesvd_right (L : kernels K) (n : nat) : Prop :=
  forall M U s Vt, gesvd L n M = Some (U, s, Vt) ->
    meq n n M (mul o n U (mul o n (diag o s) Vt)) /\
    gram n n U (one o) /\ gram n n Vt (one o) /\ gram n n (adj o Vt) (one o) /\
    forall i, i < n -> kconj o (s i) = s i.

(** C'C = G *)
Definition potrf_right (L : kernels K) (n : nat) : Prop :=
  forall G C, potrf L n G = Some C -> gram n n C G.

Definition lsolve_right (L : kernels K) (n : nat) : Prop :=
  forall A B X, lsolve L n A B = Some X -> regular o n A /\ meq n n (mul o n A X) B.
Definition rsolve_right (L : kernels K) (n : nat) : Prop :=
  forall A B X, rsolve L n A B = Some X -> regular o n A /\ meq n n (mul o n X A) B.

(** Y spans what X spans, column after column, and is orthonormal. *)
Definition bortho_right (L : kernels K) (n : nat) (G : option mx) : Prop :=
  forall X Y, bortho L n X G = Some Y ->
    orthonormal_in n n (opt G) Y /\
    exists T, upper_triangular o n T /\ meq n n X (mul o n Y T).

Definition order_right (L : kernels K) (n : nat) : Prop :=
  forall t w, permutes n (order L t n w).

(** ** The factorization (A - tau B) V = Q R, with QtQ = Q'Q *)
Definition factored (N n : nat) (A BV V : mx) (tau : K) (Q R : mx) : Prop :=
  meq N n (msub o (mul o N A V) (scale o tau BV)) (mul o n Q R).

(** ortho_block on the columns b1 .. b2-1 of Q: the columns below b1 of Q and R are
    kept, each accepted column is Q R(:,c) with R(:,c) zero below the diagonal, and
    the accepted columns are orthonormal if the first b1 were. *)
Definition ortho_right (N : nat) (f : ortho K) : Prop :=
  forall Q R b1 b2 Q' R' m, f N Q R b1 b2 = Some (Q', R', m) ->
    b1 <= m <= b2 /\
    (forall r c, c < b1 -> Q' r c = Q r c /\ R' r c = R r c) /\
    (forall r c, r < N -> b1 <= c < m -> Q r c = mul o (c + 1) Q' R' r c) /\
    (forall r c, b1 <= c < m -> c < r < b2 -> R' r c = k0 o) /\
    (gram N b1 Q (one o) -> gram N m Q' (one o)).

(** ** prepare_vecs *)

(** The rotation the state stands for: the identity in the columns that have not
    been rotated. *)
Definition rot (p : prep K) : mx := fun r c => if c <? arb p then pRot p r c else one o r c.

(** j, ..., e-1 is cut into clusters.  In each one X'HX is diagonal, no vector
    after the first one is far from the previous ones, and the first vector after
    it is, unless it is the end of the basis. *)
Inductive clusters (far : nat -> nat -> bool) (n : nat) (H X : mx) : nat -> nat -> Prop :=
| cl_nil j : clusters far n H X j j
| cl_add j i e : clusters far n H X j i -> i < e -> e <= n ->
    (forall c d, i <= c < e -> i <= d < e -> c <> d -> form n X H X c d = k0 o) ->
    (forall k, i < k < e -> far i k = false) -> (e < n -> far i e = true) ->
    clusters far n H X j e.
End Spec.
