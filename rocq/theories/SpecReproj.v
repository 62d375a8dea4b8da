(** What the restart of C51 is compared with.  The old basis V has n columns, the
    new one is V Y with rs columns; the columns ip .. ip+np-1 are those retained
    from the previous iteration, the others ("regular") are approximate
    eigenvectors. *)
From Coq Require Import List Arith Bool.
From Verif Require Import Base ProjModel SpecProj MatAlg ExtractModel SpecExtract ReprojModel.
Import ListNotations.

Section Spec.
Context {K : Type} (o : scal K).
Notation mx := (@mx K).

Definition kept (ip np i : nat) : Prop := i < ip \/ ip + np <= i.

(** The regular vectors are Ritz pairs: the residual is orthogonal to the basis. *)
Definition ritz_pairs (N n : nat) (A B V X : mx) (w : nat -> K) (j : nat) : Prop :=
  forall c, c < n -> form o N V A X c j = kmul o (form o N V B X c j) (w j).

(** They are orthonormal and orthogonal to the rest. *)
Definition orthonormal_at (N rs : nat) (B X : mx) (j : nat) : Prop :=
  forall i, i < rs -> form o N X B X i j = one o i j.

(** The permutation puts the retained vectors together, in their order. *)
Definition together (ip np rs : nat) (perm : nat -> nat) : Prop :=
  exists oi, oi + np <= rs /\ forall t, t < np -> perm (oi + t) = ip + t.

(** ** The refined extraction *)

Definition unitary (n : nat) (X : mx) : Prop := gram o n n X (one o) /\ gram o n n (adj o X) (one o).

(** (A - tau I) V = Q R with Q orthonormal, and R X = U diag(s): U, s and X are
    the singular vectors and values of R. *)
Definition refined_state (N n : nat) (A V : mx) (tau : K) (Q R U : mx) (s : nat -> K) (X : mx) : Prop :=
  factored o N n A V V tau Q R /\ gram o N n Q (one o) /\
  meq n n (mul o n R X) (mul o n U (diag o s)) /\ gram o n n U (one o) /\ unitary n X.

(** The rotation the state stands for: Rot in the first arb columns, the identity
    in the others. *)
Definition rotation (arb : nat) (Rot : mx) : mx := fun r c => if c <? arb then Rot r c else one o r c.

(** The coefficient vectors are the right singular vectors, rotated among the
    first arb ones. *)
Definition rotated (n arb : nat) (Rot X hV : mx) : Prop :=
  arb <= n /\ unitary n (rotation arb Rot) /\ (forall r c, c < arb -> arb <= r -> r < n -> Rot r c = k0 o) /\
  meq n n hV (mul o n X (rotation arb Rot)).

(** Bortho_local with the R factor: the columns before b1 are kept, each column is
    a combination of the new ones up to it, the new ones are orthonormal if the
    first were, R is zero below the diagonal, not changed in the rows from b2 on, and its
    diagonal is not negative.  A column that depends on the previous ones is replaced (R is
    zero on the diagonal). *)
Definition qr_right (nonneg : K -> Prop) (f : qr_local K) : Prop :=
  forall m V R b1 b2 V' R', f m V R b1 b2 None = Some (V', R') ->
    (forall r c, c < b1 -> V' r c = V r c /\ R' r c = R r c) /\
    (forall r c, r < m -> b1 <= c < b2 -> V r c = mul o (c + 1) V' R' r c) /\
    (forall r c, b1 <= c < b2 -> c < r -> r < b2 -> R' r c = k0 o) /\
    (forall r c, b1 <= c < b2 -> b2 <= r -> R' r c = R r c) /\
    (forall c, b1 <= c < b2 -> nonneg (R' c c)) /\
    (gram o m b1 V (one o) -> gram o m b2 V' (one o)).

(** The same in the inner product of G. *)
Definition qr_right_in (G : mx) (nonneg : K -> Prop) (f : qr_local K) : Prop :=
  forall m V R b1 b2 V' R', f m V R b1 b2 (Some G) = Some (V', R') ->
    (forall r c, c < b1 -> V' r c = V r c /\ R' r c = R r c) /\
    (forall r c, r < m -> b1 <= c < b2 -> V r c = mul o (c + 1) V' R' r c) /\
    (forall r c, b1 <= c < b2 -> c < r -> r < b2 -> R' r c = k0 o) /\
    (forall r c, b1 <= c < b2 -> b2 <= r -> R' r c = R r c) /\
    (forall c, b1 <= c < b2 -> nonneg (R' c c)) /\
    (orthonormal_in o m b1 G V -> orthonormal_in o m b2 G V').

(** Two nonnegative numbers with the same square are equal. *)
Definition nonneg_right (nonneg : K -> Prop) : Prop :=
  forall a b, nonneg a -> nonneg b -> kmul o (kconj o a) a = kmul o (kconj o b) b -> a = b.

(** inv is the inverse of perm. *)
Definition inverse (n : nat) (perm inv : nat -> nat) : Prop :=
  (forall i, i < n -> perm i < n /\ inv (perm i) = i) /\ (forall i, i < n -> inv i < n /\ perm (inv i) = i).

(** X is made of two diagonal blocks, the first of order arb. *)
Definition two_blocks (n arb : nat) (X : mx) : Prop :=
  forall i j, i < n -> j < n -> i < arb <= j \/ j < arb <= i -> X i j = k0 o.
End Spec.
