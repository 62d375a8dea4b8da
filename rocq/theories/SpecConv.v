(** Specification of convergence decisions: when a pair lies on the wrong side
    of a one-sided target, and what counts as an unordered (NaN) number. *)
From Verif Require Import Base Values ConvModel.
From Coq Require Import List Arith ZArith Bool.
Import ListNotations.

(** With the residual norm as error bar, the value is entirely on the side the
    user did not ask for (Hermitian problems only: other eigenvalues are not
    ordered). *)
Definition wrong_side {V} (o : rops V) (hermitian : bool) (t : target)
           (shift hval norm : V) : Prop :=
  hermitian = true /\
  match t with
  | closest_leq => r_lt o shift (r_sub o hval norm) = true
  | closest_geq => r_lt o (r_add o hval norm) shift = true
  | _ => False
  end.

(** A number all of whose comparisons are false, as a NaN. *)
Definition unordered {V} (o : rops V) (x : V) : Prop :=
  forall y, r_le o x y = false /\ r_le o y x = false /\
            r_lt o x y = false /\ r_lt o y x = false.

(** Comparisons of ordinary numbers. *)
Record ordered {V} (o : rops V) : Prop := {
  ord_total : forall a b, r_le o a b = true \/ r_le o b a = true;
  ord_trans : forall a b c, r_le o a b = true -> r_le o b c = true -> r_le o a c = true;
  ord_lt : forall a b, r_lt o a b = negb (r_le o b a) }.

(** The pair at position [i] was accepted by the user's test in one of the
    checks of the history, with residual norm [x]. *)
Definition accepted_by_user {V} (es : list (@event V)) (x : V) : Prop :=
  exists k test pn lo hi flags norms hVals counts i hval,
    In (Check k test pn lo hi flags norms hVals counts) es /\
    lo <= i < hi /\
    nth_error norms (i - lo) = Some x /\ nth_error hVals i = Some hval /\
    test i hval x = Some true.
