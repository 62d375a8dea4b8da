(** What the steps of C52 are compared with, for a Hermitian A and the inner product
    of B: x is a column of a matrix. *)
From Coq Require Import List Arith Bool.
From Verif Require Import Base ProjModel SpecProj MatAlg ExtractModel SpecExtract ReprojModel SpecReproj StepModel.
Import ListNotations.

Section Spec.
Context {K : Type} (o : scal K).
Notation mx := (@mx K).
Context (N : nat) (A B : mx).

(** ||A x - theta B x||^2 for x the column j of X. *)
Definition residual2 (X : mx) (j : nat) (theta : K) : K :=
  sum o N (fun r => let y := ksub o (mul o N A X r j) (kmul o theta (mul o N B X r j)) in kmul o (kconj o y) y).

(** x is normalized, theta is its Rayleigh quotient and res the square of the norm
    of its residual. *)
Definition pair_right (X : mx) (j : nat) (theta res : K) : Prop :=
  form o N X B X j j = k1 o /\ form o N X A X j j = theta /\ res = residual2 X j theta.

(** No vector of X with m columns has a component along a vector of Y with n. *)
Definition orthogonal (m n : nat) (X Y : mx) : Prop := forall i j, i < m -> j < n -> form o N X B Y i j = k0 o.

(** ** What is assumed *)

(** Bortho_block: when what precedes is orthonormal, so is the result; the first
    columns are not touched; BV is kept. *)
Definition block_right (f : block_ortho K) : Prop :=
  forall V BV b1 b2 E m V' BV' b, f V BV b1 b2 E m = Some (V', BV', b) ->
    b1 <= b <= b2 /\
    (forall r j, j < b1 -> V' r j = V r j /\ BV' r j = BV r j) /\
    (forall r j, r < N -> b1 <= j < b -> BV' r j = mul o N B V' r j) /\
    (orthonormal_in o N b1 B V -> orthonormal_in o N m B E -> orthogonal m b1 E V ->
     orthonormal_in o N b B V' /\ orthogonal m b E V').

(** Bortho_local on one vector: orthonormal to the first b columns if they are. *)
Definition vec_right (f : vec_ortho K) : Prop :=
  forall n X b v v' rr, f n X b v = Some (v', rr) -> gram o n b X (one o) ->
    sum o n (fun r => kmul o (kconj o (v' r)) (v' r)) = k1 o /\
    forall j, j < b -> sum o n (fun r => kmul o (kconj o (X r j)) (v' r)) = k0 o.

(** ** What is kept at a restart

    [X] is the array of coefficient vectors in which the columns ipB .. ipB+np-1 have
    been replaced by those retained; the permutation brings these to ip .. ip+np-1,
    and takes the other columns from the first ipB. *)
Definition selects (n rs ip np ipB : nat) (perm : nat -> nat) : Prop :=
  ipB + np <= n /\ ip + np <= rs /\
  (forall i j, i < rs -> j < rs -> perm i = perm j -> i = j) /\
  (forall u, u < np -> perm (ip + u) = ipB + u) /\
  (forall k, k < rs -> kept ip np k -> perm k < ipB).

(** ** The state *)
Context (nc : nat).
Definition good (s : state K) : Prop :=
  meq N (sn s) (sW s) (mul o N A (sV s)) /\
  meq N (sn s) (sBV s) (mul o N B (sV s)) /\
  orthonormal_in o N (sn s) B (sV s) /\
  orthonormal_in o N (nc + slk s) B (sE s) /\
  orthogonal (nc + slk s) (sn s) (sE s) (sV s) /\
  holds_upper (sn s) (sH s) (form o N (sV s) A (sV s)) /\
  eigen_of o (sn s) (form o N (sV s) A (sV s)) (one o) (sth s) (sX s) /\
  (forall i, i < slk s -> pair_right (sE s) (nc + i) (sval s i) (sres s i)).
End Spec.

(** ** The histories: from an empty basis and the caller's orthonormal constraints,
    any sequence of steps, with any corrections, any choice of what is kept and
    any outcome of the tests.  Each step may call other kernels: the order of the
    values follows the current shift, and the orthogonalization may draw random vectors. *)
Section Reach.
Context {K : Type} (o : scal K) (N : nat) (A B : @mx K) (nc : nat).
Definition kernels_right (L : kernels K) : Prop := forall m, hegv_right o L m /\ order_right L m.

(** A call of restart(): the vectors retained, X, and their number. *)
Definition retains (vorth : vec_ortho K) (s : state K) (ipB np : nat) (X : @mx K) : Prop :=
  exists skip small prev limit cnt,
    retain_vecs vorth skip small prev (sn s) ipB limit cnt 0 0 (sX s) = Some (X, np).

Inductive step : state K -> state K -> Prop :=
| step_expand L borth t s bs D s' : kernels_right L -> block_right o N B borth ->
    grow o L N A nc borth t s (sn s) bs D = Some s' -> step s s'
| step_rebuild L borth t s bs D s' : kernels_right L -> block_right o N B borth ->
    grow o L N A nc borth t s 0 bs D = Some s' -> step s s'
| step_reproject L t s s' : kernels_right L -> reproject o L N t s = Some s' -> step s s'
| step_soft L vorth t changed s ipB np X ip perm hperm s' : kernels_right L -> vec_right o vorth ->
    retains vorth s ipB np X ->
    selects (sn s) (ip + np) ip np ipB perm -> permutes (ip + np) hperm -> together ip np (ip + np) hperm ->
    restart_soft o L t changed s X ip np perm hperm = Some s' -> step s s'
| step_lock L vorth t changed s ipB np X ip numPacked ok perm hperm s' : kernels_right L -> vec_right o vorth ->
    retains vorth s ipB np X ->
    selects (sn s) (ip + np + numPacked) ip np ipB perm ->
    (let rs := ip + np + length (failed_of ok numPacked) in permutes rs hperm /\ together ip np rs hperm) ->
    restart_lock o L N nc t changed s X ip np numPacked ok perm hperm = Some s' -> step s s'.

Definition start (s : state K) : Prop := sn s = 0 /\ slk s = 0 /\ orthonormal_in o N nc B (sE s).
Inductive steps : state K -> state K -> Prop :=
| steps_none s : steps s s
| steps_more s s' s'' : steps s s' -> step s' s'' -> steps s s''.
Definition reached (s : state K) : Prop := exists s0, start s0 /\ steps s0 s.
End Reach.
